(** Property C80 (IndexConstIterator of DacVector.hpp) *)
From Coq Require Import List NArith ZArith Lia Bool Arith.
From Verif Require Import Base Spec Spec2 IterSpec DacModel DacProof IterModel IterProof.
Import ListNotations.
Local Open Scope nat_scope.

(** ** C80 *)
Theorem C80_collect : forall units l, l <> [] -> Forall (fun v => (v < 2 ^ 63)%N) l ->
  units <> [] -> Forall (fun u => 1 <= u <= 63) units -> max_bits l <= list_sum_nat units ->
  list_sum_nat (removelast units) < max_bits l -> (Z.of_nat (length l) < 2 ^ 63)%Z ->
  exists d, dac_of_list l units = Ok d /\
    (forall fuel, length l <= fuel -> dac_collect fuel d = Ok l) /\
    dac_front d = Ok (hd 0%N l) /\ dac_back d = Ok (last l 0%N).
Proof.
  intros units l A B C D E F G. destruct (dac_explicit_reads units l A B C D E F) as (d & X & Y & _ & W & _). exists d.
  split; auto. split; [now apply collect_ok|]. now apply front_back.
Qed.
Print Assumptions C80_collect.
Example C80_collect_ex : let l := [3; 300; 0; 70000; 1; 65536]%N in
  list_sum_nat (removelast [4; 5; 8]) < max_bits l /\ max_bits l <= list_sum_nat [4; 5; 8] /\
  (do d <- dac_of_list l [4; 5; 8]; dac_collect 6 d) = Ok l.
Proof. split; [vm_compute; lia|]. split; [vm_compute; lia|]. vm_compute; reflexivity. Qed.

Theorem C80_moves : forall units l, l <> [] -> Forall (fun v => (v < 2 ^ 63)%N) l ->
  units <> [] -> Forall (fun u => 1 <= u <= 63) units -> max_bits l <= list_sum_nat units ->
  list_sum_nat (removelast units) < max_bits l -> (Z.of_nat (length l) < 2 ^ 63)%Z ->
  exists d, dac_of_list l units = Ok d /\
    forall ms, Forall legal_move ms -> (0 <= moved ms < Z.of_nat (length l))%Z ->
    exists pos, it_walk dac_begin ms = Ok pos /\ it_deref d pos = Ok (nth (Z.to_nat (moved ms)) l 0%N) /\
      forall p, (N.to_nat p + Z.to_nat (moved ms) < length l) -> it_index d pos p = Ok (nth (Z.to_nat (moved ms) + N.to_nat p) l 0%N).
Proof.
  intros units l A B C D E F G. destruct (dac_explicit_reads units l A B C D E F) as (d & X & Y & _ & W & _). exists d.
  split; auto. now apply walk_deref.
Qed.
Print Assumptions C80_moves.
Example C80_moves_ex : let ms := [Inc; Sub 3; Dec; Add 6; Sub (-2)]%Z in
  Forall legal_move ms /\ moved ms = 5%Z /\
  (do d <- dac_of_list [3; 300; 0; 70000; 1; 65536]%N [4; 5; 8]; do p <- it_walk dac_begin ms; it_deref d p) = Ok 65536%N.
Proof. split; [repeat constructor; vm_compute; congruence|]. split; [reflexivity|]. vm_compute; reflexivity. Qed.

Theorem C80_order : forall l : list N, (Z.of_nat (length l) < 2 ^ 63)%Z -> forall ms1 ms2,
  Forall legal_move ms1 -> Forall legal_move ms2 ->
  (0 <= moved ms1 <= Z.of_nat (length l))%Z -> (0 <= moved ms2 <= Z.of_nat (length l))%Z ->
  exists p q, it_walk dac_begin ms1 = Ok p /\ it_walk dac_begin ms2 = Ok q /\
    it_diff p q = (moved ms1 - moved ms2)%Z /\
    (it_eq p q = true <-> moved ms1 = moved ms2) /\ (it_ne p q = true <-> moved ms1 <> moved ms2) /\
    (it_lt p q = true <-> moved ms1 < moved ms2)%Z /\ (it_gt p q = true <-> moved ms1 > moved ms2)%Z /\
    (it_le p q = true <-> moved ms1 <= moved ms2)%Z /\ (it_ge p q = true <-> moved ms1 >= moved ms2)%Z.
Proof. exact walk_compare. Qed.
Print Assumptions C80_order.
Example C80_order_ex : Forall legal_move [Inc; Sub 5; Add 6]%Z /\
  (do p <- it_walk dac_begin [Inc; Sub 5; Add 6]%Z; do q <- it_walk dac_begin [Add 5]%Z; Ok (it_diff p q, it_lt p q)) = Ok ((-3)%Z, true).
Proof. split; [repeat constructor; vm_compute; congruence|]. vm_compute; reflexivity. Qed.

(** iterator - distance *)
Theorem C80_minus : forall pos k, (- 2 ^ 63 <= k < 2 ^ 63)%Z -> (0 <= Z.of_N pos - k < 2 ^ 64)%Z ->
  it_minus pos k = if (k =? - 2 ^ 63)%Z then UB else Ok (Z.to_N (Z.of_N pos - k)).
Proof.
  intros pos k Hk H. unfold it_minus, it_sub, it_add. destruct (k =? - 2 ^ 63)%Z; [reflexivity|]. f_equal. f_equal.
  replace (Z.of_N pos + - k)%Z with (Z.of_N pos - k)%Z by lia. apply Z.mod_small. exact H.
Qed.
Print Assumptions C80_minus.
Example C80_minus_ex : it_minus 5 3 = Ok 2%N /\ it_minus 5 (-3) = Ok 8%N.
Proof. split; vm_compute; reflexivity. Qed.
