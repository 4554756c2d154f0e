(** Properties C28 and C29 (MultiBitVector.hpp). *)
From Coq Require Import List NArith ZArith Lia Bool Arith.
From Verif Require Import Base Spec Spec2 MultiBitModel MultiBitProof.
Import ListNotations.
Local Open Scope nat_scope.

(** ** C28 *)
Theorem C28_last_set : forall U ops, U = 1 \/ U = 2 \/ U = 3 -> Forall (mb_op_fits U) ops ->
  exists v, mb_run U ops = Ok v /\
    forall i, i < mb_capacity (64 / U) (rev ops) -> mb_get U v i = Ok (mb_last (64 / U) (rev ops) i).
Proof. exact mb_history. Qed.
Print Assumptions C28_last_set.
Example C28_last_set_ex : let ops := [MBSet 40 5; MBSet 41 7; MBSet 42 1; MBSet 41 2; MBResize 70; MBSet 20 6; MBResize 41]%N in
  Forall (mb_op_fits 3) ops /\ mb_capacity 21 (rev ops) = 42 /\
  (do v <- mb_run 3 ops; mapM (mb_get 3 v) [19; 20; 21; 40; 41]) = Ok [0; 6; 0; 5; 2]%N /\
  (do v <- mb_run 3 ops; mb_get 3 v 42) = UB.
Proof. split; [repeat constructor|]. repeat split; vm_compute; reflexivity. Qed.

(** ** C29 *)
Theorem C29_rank : forall U ops, U = 1 \/ U = 2 \/ U = 3 -> Forall (mb_op_fits U) ops ->
  exists v v', mb_run U ops = Ok v /\ mb_build U v = Ok v' /\
    (forall i, i < mb_capacity (64 / U) (rev ops) -> mb_get U v' i = Ok (mb_last (64 / U) (rev ops) i)) /\
    forall i, i < mb_capacity (64 / U) (rev ops) -> mb_last (64 / U) (rev ops) i <> 0%N ->
      mb_rank U v' i = Ok (N.of_nat (count_if (fun j => (mb_last (64 / U) (rev ops) j =? mb_last (64 / U) (rev ops) i)%N) (seq 0 i))).
Proof. exact mb_history_rank. Qed.
Print Assumptions C29_rank.
Example C29_rank_ex : let ops := map (fun i => MBSet (9 * i) (N.of_nat (i * i mod 7))) (seq 1 12) in
  (do v <- mb_run 3 ops; do v <- mb_build 3 v; do r <- mb_rank 3 v 99; Ok r) = Ok 3%N /\
  length (filter (fun j => (j * j) mod 7 =? (11 * 11) mod 7) (seq 1 10)) = 3.
Proof. split; vm_compute; reflexivity. Qed.
