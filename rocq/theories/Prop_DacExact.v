(** C106: DacVector with every list of level widths. *)
From Coq Require Import List NArith ZArith Arith Bool Lia.
From Verif Require Import Base Spec CalcModel FitVectorModel DacModel DacProof DacExact.
Import ListNotations.
Local Open Scope nat_scope.

(** without widths: as C23 and C25, for every list *)
Theorem C106_no_widths : forall l, (N.of_nat (length l) < 2 ^ 57)%N -> dac_of_list l [] = match l with [] => Ok (Dac None [] [] []) | _ => UB end.
Proof. exact dac_no_widths. Qed.
Print Assumptions C106_no_widths.

(** with widths: defined exactly when ... *)
Theorem C106_defined : forall units l, l <> [] -> units <> [] ->
  ((exists d, dac_of_list l units = Ok d) <->
   Forall (fun v => (v < 2 ^ 63)%N) l /\ Forall (fun u => 1 <= u <= 63) units /\ list_sum_nat (removelast units) < max_bits l).
Proof. exact dac_defined. Qed.
Print Assumptions C106_defined.

(** what is read when it is defined: the values modulo 2 to the sum of the widths *)
Theorem C106_reads : forall units l, l <> [] -> units <> [] -> Forall (fun v => (v < 2 ^ 63)%N) l ->
  Forall (fun u => 1 <= u <= 63) units -> list_sum_nat (removelast units) < max_bits l ->
  exists d, dac_of_list l units = Ok d /\ dac_size d = Ok (length l) /\
    (forall i, dac_at d i = match nth_error l i with Some x => Ok (x mod 2 ^ N.of_nat (list_sum_nat units))%N | None => Throw end) /\
    (forall i, i < length l -> exists k, dac_depth d i = Ok k /\ k < length units /\
      (k + 1 < length units -> (nth i l 0 < 2 ^ N.of_nat (list_sum_nat (firstn (S k) units)))%N) /\
      forall j, j < k -> (2 ^ N.of_nat (list_sum_nat (firstn (S j) units)) <= nth i l 0)%N).
Proof.
  intros units l Hl Hu F. apply (dac_every units l Hl Hu). apply forallb_forall. intros v I. rewrite Forall_forall in F. apply N.ltb_lt. auto.
Qed.
Print Assumptions C106_reads.
(** three levels of 4 + 5 + 3 bits are too few for 70000 = 0x11170: 0x170 is read *)
Example C106_reads_ex : let l := [3; 300; 0; 70000]%N in list_sum_nat (removelast [4; 5; 3]) < max_bits l /\
  (do d <- dac_of_list l [4; 5; 3]; mapM (dac_at d) [0; 1; 2; 3]) = Ok [3; 300; 0; 0x170]%N /\ (do d <- dac_of_list l [4; 5; 3]; mapM (dac_depth d) [0; 1; 2; 3]) = Ok [0; 1; 0; 2].
Proof. vm_compute. repeat split; auto. repeat constructor. Qed.

(** and otherwise: the first level that has no bits, if a value reaches it, asks for too much memory; the first level that no
    value reaches is looked up past the table of frequencies; a last level of 64 bits or more is an undefined shift *)
Theorem C106_empty_level : forall units l, l <> [] -> units <> [] -> Forall (fun v => (v < 2 ^ 63)%N) l ->
  forall j, j < length units -> nth j units 1 = 0 -> Forall (fun u => 1 <= u) (firstn j units) -> list_sum_nat (firstn j units) < max_bits l -> dac_of_list l units = Throw.
Proof.
  intros units l Hl Hu F. apply (dac_every units l Hl Hu). apply forallb_forall. intros v I. rewrite Forall_forall in F. apply N.ltb_lt. auto.
Qed.
Print Assumptions C106_empty_level.
Theorem C106_unreached_level : forall units l, l <> [] -> units <> [] -> Forall (fun v => (v < 2 ^ 63)%N) l ->
  forall j, j < length units -> Forall (fun u => 1 <= u) (firstn j units) -> max_bits l <= list_sum_nat (firstn j units) -> dac_of_list l units = UB.
Proof.
  intros units l Hl Hu F. apply (dac_every units l Hl Hu). apply forallb_forall. intros v I. rewrite Forall_forall in F. apply N.ltb_lt. auto.
Qed.
Print Assumptions C106_unreached_level.
Theorem C106_wide_level : forall units l, l <> [] -> units <> [] -> Forall (fun v => (v < 2 ^ 63)%N) l ->
  Forall (fun u => 1 <= u) units -> list_sum_nat (removelast units) < max_bits l -> 64 <= last units 0 -> dac_of_list l units = UB.
Proof.
  intros units l Hl Hu F. apply (dac_every units l Hl Hu). apply forallb_forall. intros v I. rewrite Forall_forall in F. apply N.ltb_lt. auto.
Qed.
Print Assumptions C106_wide_level.
Theorem C106_top_value : forall units l x, units <> [] -> In x l -> (2 ^ 63 <= x)%N -> dac_of_list l units = UB.
Proof.
  intros units l x Hu I X. assert (Hl : l <> []) by (intros ->; destruct I). apply (proj1 (dac_every units l Hl Hu)).
  destruct (forallb (fun v => (v <? 2 ^ 63)%N) l) eqn:E; auto. exfalso. apply (proj1 (forallb_forall _ _)) with (x := x) in E; auto. apply N.ltb_lt in E. lia.
Qed.
Print Assumptions C106_top_value.
Example C106_other_ex : dac_of_list [3; 300]%N [4; 0; 8] = Throw /\ dac_of_list [3; 300]%N [9; 0] = UB /\ dac_of_list [3; 300]%N [4; 5; 8] = UB /\ dac_of_list [3; 300]%N [4; 64] = UB /\
  dac_of_list [3; 2 ^ 63]%N [4; 60] = UB /\ dac_of_list [] [0; 64] = Ok (Dac None [] [] []).
Proof. vm_compute. auto 10. Qed.
