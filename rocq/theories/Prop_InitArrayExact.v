(** C112: in-place initializable arrays of float and double. *)
From Coq Require Import List NArith ZArith Lia Bool Arith.
From Verif Require Import Base Spec3 Spec18 InitArrayModel InitArrayExact.
Import ListNotations.
Local Open Scope nat_scope.

(** An element is wrong only if its index is even, its pair was written since the last fill and lies behind the first [pairs_written] pairs.
    All such elements read as one element [j]. *)
Theorem C112_float : forall w digits next size mem v ops, w = 32%N /\ digits = 24%N /\ next = next_float \/ w = 64%N /\ digits = 53%N /\ next = next_double ->
  in_place_case digits size -> length mem = kActualSize size -> Forall (ia_op_in size) ops ->
  let m := kActualSize size / 2 in
  exists s j, ia_run w size mem v ops = Ok s /\
    (pair_written (rev ops) 0 = true -> j = 1) /\
    (pair_written (rev ops) 0 = false -> 0 < pairs_written (rev ops) m -> exists k, j = 2 * k /\ pairs_written (rev ops) m <= k /\ k < m /\ pair_written (rev ops) k = true) /\
    forall i, i < size -> ia_get next size s i = Ok (ia_last v (rev ops) (if (i mod 2 =? 0) && (pairs_written (rev ops) m <=? i / 2) && pair_written (rev ops) (i / 2) then j else i)).
Proof. exact float_every. Qed.
Print Assumptions C112_float.
(** a[6] = 1.0f; a[4] = 2.0f; a[5] = 3.0f: the pairs 2 and 3 are written, a[4] reads as a[6]; after a[1] = 4.0f pair 0 is written and a[6] reads as a[1] *)
Example C112_example : let ops := [IASet 6 1065353216; IASet 4 1073741824; IASet 5 1077936128]%N in let mem := [0; 0; 0; 0; 0; 0; 0; 0]%N in
  in_place_case 24 8 /\ Forall (ia_op_in 8) ops /\ pairs_written (rev ops) 4 = 2 /\ pair_written (rev ops) 0 = false /\
  (do s <- ia_run 32 8 mem 0 ops; mapM (ia_get next_float 8 s) (seq 0 8)) = Ok [0; 0; 0; 0; 1065353216; 1077936128; 1065353216; 0]%N /\
  (do s <- ia_run 32 8 mem 0 (ops ++ [IASet 1 1082130432%N]); mapM (ia_get next_float 8 s) (seq 0 8)) = Ok [0; 1082130432; 0; 0; 1073741824; 1077936128; 1082130432; 0]%N.
Proof. cbv zeta. split; [split; vm_compute; congruence|]. split; [repeat constructor|]. vm_compute. auto. Qed.
