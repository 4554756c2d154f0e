(** Property C79 (MultiBitVector.hpp: histories that call build() repeatedly, and popcnt_ with a width) *)
From Coq Require Import List NArith ZArith Lia Bool Arith.
From Verif Require Import Base Spec Spec2 MultiBitSpec MultiBitModel MultiBitProof MultiBitProof2.
Import ListNotations.
Local Open Scope nat_scope.

(** ** C79 *)
Theorem C79_rebuild : forall U ops, U = 1 \/ U = 2 \/ U = 3 -> Forall (mb_op_fits U) (writes ops) ->
  let cap := mb_capacity (64 / U) (rev (writes ops)) in let value := mb_last (64 / U) (rev (writes ops)) in
  exists v, mb_run_b U ops = Ok v /\
    (forall i, i < cap -> mb_get U v i = Ok (value i)) /\
    (just_built ops -> forall i, i < cap -> value i <> 0%N ->
      mb_rank U v i = Ok (N.of_nat (count_if (fun j => (value j =? value i)%N) (seq 0 i)))).
Proof. exact mb_rebuilt. Qed.
Print Assumptions C79_rebuild.
Example C79_rebuild_ex : let ops := [MBDo (MBSet 3 5); MBBuild; MBDo (MBSet 40 5); MBDo (MBSet 3 1); MBDo (MBSet 50 5); MBBuild]%N in
  just_built ops /\ Forall (mb_op_fits 3) (writes ops) /\ (do v <- mb_run_b 3 ops; mb_rank 3 v 50) = Ok 1%N.
Proof.
  split; [exists [MBDo (MBSet 3 5); MBBuild; MBDo (MBSet 40 5); MBDo (MBSet 3 1); MBDo (MBSet 50 5)]%N; reflexivity|].
  split; [repeat constructor|]. vm_compute; reflexivity.
Qed.

Theorem C79_popcnt_width : forall U t w r, U = 1 \/ U = 2 \/ U = 3 -> t < 2 ^ U -> (w < 2 ^ 64)%N -> r * U < 64 ->
  mb_popcnt_width U t w (N.of_nat (r * U)) = Ok (N.of_nat (fields_equal U r (N.of_nat t) w)).
Proof. exact popcnt_width_ok. Qed.
Print Assumptions C79_popcnt_width.
Example C79_popcnt_width_ex : mb_popcnt_width 2 0 228 6 = Ok 1%N /\ mb_popcnt_width 2 0 228 12 = Ok 3%N /\ fields_equal 2 6 0 228 = 3.
Proof. repeat split; vm_compute; reflexivity. Qed.
