(** C89: CDRWVector under arbitrary operations. *)
From Coq Require Import List NArith ZArith Arith Bool.
From Verif Require Import Base Spec4 Spec9 CHTModel CDRWModel CDRWVecAll.
Import ListNotations.
Local Open Scope nat_scope.

(** until one of the tables is completely full *)
Theorem C89_all_operations : forall n ops s, 1 <= n -> (N.of_nat n <= 2 ^ 48)%N -> (N.of_nat (length ops) <= 2 ^ 48)%N -> steps tape_step (Tape n (repeat 0%N n) 0) ops = Some s ->
  (exists pre post v, ops = pre ++ post /\ cdv_run n pre = Ok v /\ exists t, In t (cd_tables (dv_arr v)) /\ ch_used t = ch_bucket t) \/
  (exists v lost, cdv_run n ops = Ok v /\ dv_size v = tp_size s /\ dv_cap v = length (tp_cells s) /\ tp_size s <= length (tp_cells s) /\ length lost <= tp_changes s /\
     forall i, i < length (tp_cells s) -> cdv_get v i = Ok (if in_dec Nat.eq_dec i lost then 0%N else nth i (tp_cells s) 0%N)).
Proof. exact vec_all. Qed.
Print Assumptions C89_all_operations.
(** element 6 is lost, element 0 comes back after the elements were removed *)
Example C89_example : let ops := [DSet 6 2%N; DSet 3 1%N; DSet 3 0%N; DSet 0 3%N; DSet 1 1%N; DSet 1 0%N; DClear; DResize 7] in
  steps tape_step (Tape 8 (repeat 0%N 8) 0) ops = Some (Tape 7 [3; 0; 0; 0; 0; 0; 2; 0]%N 2) /\
  (do v <- cdv_run 8 ops; mapM (cdv_get v) (seq 0 8)) = Ok [3; 0; 0; 0; 0; 0; 0; 0]%N.
Proof. split; vm_compute; reflexivity. Qed.
(** the cells beyond the elements are cleared when the tape is replaced *)
Example C89_example_grow : let ops := [DPush 9%N; DSet 0 5%N; DPop; DResize 3; DPop; DPop; DReserve 5] in
  steps tape_step (Tape 1 [0]%N 0) ops = Some (Tape 1 [5; 0; 0; 0; 0; 0; 0; 0]%N 0) /\
  (do v <- cdv_run 1 ops; mapM (cdv_get v) (seq 0 8)) = Ok [5; 0; 0; 0; 0; 0; 0; 0]%N.
Proof. split; vm_compute; reflexivity. Qed.
