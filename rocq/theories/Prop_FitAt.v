(** C121: checked access to a FitVector over every history. *)
From Coq Require Import List NArith ZArith Arith Bool.
From Verif Require Import Base Spec Spec7 FitVectorModel FitAt.
Import ListNotations.
Local Open Scope nat_scope.

Theorem C121_access : forall w ops n T, 1 <= w <= 63 -> Forall op_word ops -> tape_run w (0, fun _ => false) ops = Some (n, T) ->
  exists v, fv_run (fv_make w) ops = Ok v /\
    (forall i, fv_at v i = if i <? n then Ok (tape_num T (i * w) w) else Throw) /\
    (fv_front v = if 0 <? n then Ok (tape_num T 0 w) else UB) /\ (fv_back v = if 0 <? n then Ok (tape_num T ((n - 1) * w) w) else UB) /\
    (forall i x, n <= i -> fv_at_set v i x = Throw) /\
    (forall i x, i < n -> (x < 2 ^ 64)%N -> exists v', fv_at_set v i x = Ok v' /\ forall j, fv_at v' j = if j <? n then Ok (tape_num (tape_store w (i * w) x T) (j * w) w) else Throw).
Proof. exact at_history. Qed.
Print Assumptions C121_access.
(** stale values behind a shrink, and a value of 13 bits in elements of 7 *)
Example C121_access_ex : let ops := [FVAssign 12 5; FVResize 3; FVResize 12; FVWrite 7 8191]%N in
  Forall op_word ops /\ (exists T, tape_run 7 (0, fun _ => false) ops = Some (12, T)) /\
  (do v <- fv_run (fv_make 7) ops; mapM (fv_at v) (seq 0 12)) = Ok [5; 5; 5; 5; 5; 5; 5; 127; 63; 1; 0; 0]%N /\
  (do v <- fv_run (fv_make 7) ops; fv_at v 12) = Throw /\ (do v <- fv_run (fv_make 7) ops; do v <- fv_at_set v 8 3; mapM (fv_at v) [7; 8; 9]) = Ok [127; 3; 1]%N.
Proof. cbv zeta. split; [repeat constructor|]. split; [eexists; reflexivity|]. split; [vm_compute; reflexivity|]. split; vm_compute; reflexivity. Qed.
