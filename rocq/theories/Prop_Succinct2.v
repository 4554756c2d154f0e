(** Property C76 (SuccinctBitVector.hpp on targets with POPCNT or BMI2). *)
From Coq Require Import List NArith Lia Bool Arith.
From Verif Require Import Base Spec BitUtilModel HwModel BitVectorModel SuccinctModel SuccinctProof SuccinctProof3 SuccinctExact.
Import ListNotations.
Local Open Scope nat_scope.

(** The word-level select is the portable one over POPCNT, or pdep followed by tzcnt or by POPCNT. *)
Theorem C76_select : forall selw v l, selw = sel_hw \/ selw = sel_bmi2 ctz64_bmi \/ selw = sel_bmi2 (ctz_popcnt 64) ->
  bv_reach v l -> (N.of_nat (length l) < 2 ^ 41)%N ->
  exists s, sb_build true v = Ok s /\ forall k, k < count_true l ->
    if k / 512 <=? ones_before_last_block l / 512
    then exists p, sb_select selw s k = Ok (N.of_nat p) /\ is_kth_one l k p /\ sb_rank s p = Ok (N.of_nat k)
    else sb_select selw s k = UB.
Proof. exact select_exact. Qed.
Print Assumptions C76_select.
(** 0x0F0F0F0F, on which the portable select is wrong (C17_select_portable_refuted) *)
Example C76_select_ex :
  let l := repeat true 4 ++ repeat false 4 ++ repeat true 4 ++ repeat false 4 ++ repeat true 4 ++ repeat false 4 ++ repeat true 4 in
  exists v, bv_reach v l /\ (do s <- sb_build true v; sb_select sel_hw s 1) = Ok 1%N /\ (do s <- sb_build true v; sb_select (sel_bmi2 ctz64_bmi) s 5) = Ok 9%N.
Proof.
  intro l. eexists. split.
  - exists (bv_of_bits l), l, []. split; [apply StartBits|]. split; vm_compute; reflexivity.
  - split; vm_compute; reflexivity.
Qed.

Theorem C76_rank : forall us v l, bv_reach v l -> exists s, sb_build us v = Ok s /\ forall i, i <= length l ->
  if (i =? length l) && (length l mod 64 =? 0) && negb (length l =? 0) then sb_rank s i = UB
  else sb_rank s i = Ok (N.of_nat (count_true (firstn i l))).
Proof. exact rank_exact. Qed.
Print Assumptions C76_rank.
Example C76_rank_ex : exists v, bv_reach v (repeat true 64) /\ (do s <- sb_build false v; sb_rank s 63) = Ok 63%N /\ (do s <- sb_build false v; sb_rank s 64) = UB.
Proof.
  eexists. split.
  - exists (bv_filled 64 true), (repeat true 64), []. split; [apply StartFilled|]. split; vm_compute; reflexivity.
  - split; vm_compute; reflexivity.
Qed.
