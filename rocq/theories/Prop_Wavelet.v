(** Properties C26 and C27 (WaveletTree.hpp). *)
From Coq Require Import List NArith ZArith Lia Bool Arith.
From Verif Require Import Base Spec Spec2 FitVectorModel WaveletModel WaveletProof.
Import ListNotations.
Local Open Scope nat_scope.

(** ** C26 *)
(** What operator[] returns for every sequence of values below 2^31: the value modulo 256. *)
Theorem C26_access_mod_256 : forall l, l <> [] -> Forall (fun x => (x < 2 ^ 31)%N) l -> (N.of_nat (length l) < 2 ^ 63)%N ->
  exists t, wt_make l = Ok t /\ forall i, i < length l -> wt_get t i = Ok (nth i l 0 mod 256)%N.
Proof. intros l A B C. destruct (wt_reads l A B C) as (t & E & H & _). eauto. Qed.
Print Assumptions C26_access_mod_256.

(** Missing: values of 256 and more. *)
Theorem C26_access_partial : forall l, l <> [] -> Forall (fun x => (x < 256)%N) l -> (N.of_nat (length l) < 2 ^ 63)%N ->
  exists t, wt_make l = Ok t /\ forall i, i < length l -> wt_get t i = Ok (nth i l 0%N).
Proof.
  intros l A B C. destruct (wt_reads l A) as (t & E & H & _); auto.
  - eapply Forall_impl; [|exact B]. intros x Hx. eapply N.lt_trans; [exact Hx|reflexivity].
  - exists t. split; auto. intros i Hi. rewrite H by auto. rewrite N.mod_small; auto.
    rewrite Forall_forall in B. apply B, nth_In; auto.
Qed.
Print Assumptions C26_access_partial.
Example C26_access_ex : let l := [3; 200; 0; 3; 255; 17; 3; 128]%N in
  (do t <- wt_make l; mapM (wt_get t) (seq 0 8)) = Ok l.
Proof. vm_compute; reflexivity. Qed.

Theorem C26_refuted : exists l i x, nth_error l i = Some x /\ (do t <- wt_make l; wt_get t i) = Ok 44%N /\ x = 300%N.
Proof. exists [300; 1]%N, 0, 300%N. split; [reflexivity|]. split; [vm_compute; reflexivity|reflexivity]. Qed.
Print Assumptions C26_refuted.

(** ** C27 *)
Theorem C27_rank_partial : forall l, l <> [] -> Forall (fun x => (x < 2 ^ 31)%N) l -> (N.of_nat (length l) < 2 ^ 63)%N ->
  exists t, wt_make l = Ok t /\
    forall i, i < length l -> wt_rank t i = Ok (count_if (fun x => (x =? nth i l 0)%N) (firstn i l)).
Proof. intros l A B C. destruct (wt_reads l A B C) as (t & E & _ & H & _). eauto. Qed.
Print Assumptions C27_rank_partial.
Theorem C27_access_and_rank_partial : forall l, l <> [] -> Forall (fun x => (x < 2 ^ 31)%N) l -> (N.of_nat (length l) < 2 ^ 63)%N ->
  exists t, wt_make l = Ok t /\
    forall i, i < length l -> wt_access_and_rank t i = Ok ((nth i l 0 mod 256)%N, count_if (fun x => (x =? nth i l 0)%N) (firstn i l)).
Proof. intros l A B C. destruct (wt_reads l A B C) as (t & E & _ & _ & H). eauto. Qed.
Print Assumptions C27_access_and_rank_partial.
Example C27_rank_ex : let l := [3; 200; 0; 3; 255; 17; 3; 128]%N in
  (do t <- wt_make l; mapM (wt_rank t) (seq 0 8)) = Ok [0; 0; 0; 1; 0; 0; 2; 0] /\
  (do t <- wt_make l; wt_access_and_rank t 6) = Ok (3%N, 2).
Proof. split; vm_compute; reflexivity. Qed.

(** rank(c,i) where no level that is visited ends exactly at a word boundary before position i (see C16).
    Missing: that case, and symbols of more bits than the greatest element has. *)
Theorem C27_rank_symbol_partial : forall l c i, l <> [] -> Forall (fun x => (x < 2 ^ 31)%N) l -> (N.of_nat (length l) < 2 ^ 63)%N ->
  i <= length l -> (c < 256)%N -> (c < 2 ^ N.of_nat (bits_needed (max_element l)))%N ->
  (forall k, 1 <= k <= bits_needed (max_element l) ->
     sharing k c (firstn i l) < sharing k c l \/ sharing k c l mod 64 <> 0 \/ sharing k c l = 0) ->
  exists t, wt_make l = Ok t /\ wt_rank_c t c i = Ok (count_if (fun x => (x =? c)%N) (firstn i l)).
Proof. exact wt_rank_c_reads. Qed.
Print Assumptions C27_rank_symbol_partial.
(** In particular for sequences of fewer than 64 elements, and at positions that hold c. *)
Theorem C27_rank_symbol_short_partial : forall l c i, l <> [] -> length l < 64 -> Forall (fun x => (x < 2 ^ 31)%N) l -> i <= length l ->
  (c < 256)%N -> (c < 2 ^ N.of_nat (bits_needed (max_element l)))%N ->
  exists t, wt_make l = Ok t /\ wt_rank_c t c i = Ok (count_if (fun x => (x =? c)%N) (firstn i l)).
Proof. exact wt_rank_c_short. Qed.
Print Assumptions C27_rank_symbol_short_partial.
Theorem C27_rank_symbol_member_partial : forall l c i, i < length l -> nth i l 0%N = c -> Forall (fun x => (x < 2 ^ 31)%N) l ->
  (N.of_nat (length l) < 2 ^ 63)%N -> (c < 256)%N ->
  exists t, wt_make l = Ok t /\ wt_rank_c t c i = Ok (count_if (fun x => (x =? c)%N) (firstn i l)).
Proof. exact wt_rank_c_member. Qed.
Print Assumptions C27_rank_symbol_member_partial.
Example C27_rank_symbol_ex : let l := [3; 2; 0; 3; 5; 1; 3; 1]%N in
  (do t <- wt_make l; wt_rank_c t 3 8) = Ok 3 /\ (do t <- wt_make l; wt_rank_c t 1 7) = Ok 1 /\
  (do t <- wt_make l; wt_rank_c t 7 8) = Ok 0.
Proof. repeat split; vm_compute; reflexivity. Qed.

(** High bits of the symbol are ignored. *)
Theorem C27_symbol_high_bits_ignored : forall t c i, wt_rank_c t c i = wt_rank_c t (c mod 256 mod 2 ^ N.of_nat (wt_height t)) i.
Proof. exact wt_rank_c_high. Qed.
Print Assumptions C27_symbol_high_bits_ignored.
Theorem C27_refuted : exists l c i n, (c < 256)%N /\ i <= length l /\
  (do t <- wt_make l; wt_rank_c t c i) = Ok n /\ count_if (fun x => (x =? c)%N) (firstn i l) <> n.
Proof. exists [0; 1; 0]%N, 2%N, 3, 2. split; [reflexivity|]. split; [simpl; lia|]. split; vm_compute; [reflexivity|discriminate]. Qed.
Print Assumptions C27_refuted.
Theorem C27_out_of_bounds_refuted : exists l c i, i = length l /\ In c l /\ (do t <- wt_make l; wt_rank_c t c i) = UB.
Proof. exists (repeat 0%N 63 ++ [1%N]), 1%N, 64. split; [reflexivity|]. split; [apply in_or_app; right; now left|vm_compute; reflexivity]. Qed.
Print Assumptions C27_out_of_bounds_refuted.
