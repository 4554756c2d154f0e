(** Property C30 and the MultipleVector parts of C32 and C33 (MultipleVector.hpp). *)
From Coq Require Import List NArith ZArith Lia Bool Arith.
From Verif Require Import Base Spec3 StreamModel MultipleModel MultipleModel2 MultipleProof MultipleProof2.
Import ListNotations.
Local Open Scope nat_scope.

(** ** C30 *)
Theorem C30_fields : forall sizes ops l, Forall (fun s => s <= 8) sizes -> 0 < list_sum sizes ->
  mv_spec_run sizes [] ops = Some l ->
  exists m, mv_run sizes ops = Ok m /\ mv_size m = Ok (length l) /\
    forall i e, i < length l -> e < length sizes ->
      let x := nth e (nth i l []) 0%N in
      mv_nested m i e = Ok x /\ mv_block_get m i e = Ok x /\ forall t, mv_block_restricted_get m t i e = Ok (x mod 256 ^ N.of_nat t)%N.
Proof. intros sizes ops l H H0. exact (mv_history sizes H H0 ops l). Qed.
Print Assumptions C30_fields.
Example C30_ex : let sizes := [2; 0; 1; 8] in
  let ops := [MVResize 2; MVSet 1 2 511; MVPush [70000; 3]; MVEmplace; MVBlockSet 0 0 258; MVRestrictedSet 1 0 0 7; MVResizeV 5 [1; 0; 2; 12]; MVSet 2 3 99]%N in
  mv_spec_run sizes [] ops = Some [[263; 0; 0; 0]; [0; 0; 255; 0]; [4464; 0; 0; 99]; [0; 0; 0; 0]; [1; 0; 2; 12]]%N /\
  (do m <- mv_run sizes ops; mapM (fun p => mv_nested m (fst p) (snd p)) [(0, 0); (1, 2); (2, 0); (2, 3); (4, 3)]) = Ok [263; 255; 4464; 99; 12]%N.
Proof. split; vm_compute; reflexivity. Qed.

(** ** C32 for MultipleVector: exact into a fresh object *)
Theorem C32_multiple_partial : forall sizes ops m rest, mv_run sizes ops = Ok m -> mv_fits m ->
  mv_load mv_default (mv_store m ++ rest) = Ok (m, rest).
Proof. exact mv_round_trip. Qed.
Print Assumptions C32_multiple_partial.
Example C32_multiple_ex : (do m <- mv_run [2; 1] [MVPush [515; 7]%N; MVPush [1; 2]%N]; do r <- mv_load mv_default (mv_store m ++ [42%N]);
  do x <- mv_nested (fst r) 0 0; do n <- mv_size (fst r); Ok (x, n, snd r)) = Ok (515%N, 2, [42%N]).
Proof. vm_compute; reflexivity. Qed.
(** Loading into an object that already has a layout keeps the old layout in front. *)
Theorem C32_multiple_refuted : exists m m', mv_run [1; 2] [MVPush [3; 515]%N] = Ok m /\ mv_load (mv_make [2; 1]) (mv_store m) = Ok (m', []) /\
  mv_nested m 0 0 = Ok 3%N /\ mv_nested m' 0 0 = Ok 771%N.
Proof. eexists _, _. split; [vm_compute; reflexivity|]. split; [vm_compute; reflexivity|]. split; vm_compute; reflexivity. Qed.
Print Assumptions C32_multiple_refuted.

(** ** C33 for MultipleVector: it reports 4 bytes too few *)
Theorem C33_multiple_four_less : forall m, mv_size_in_bytes m + 4 = length (mv_store m).
Proof. exact mv_size_bytes. Qed.
Print Assumptions C33_multiple_four_less.
Example C33_multiple_ex : (do m <- mv_run [2; 1] [MVPush [515; 7]%N]; Ok (mv_size_in_bytes m, length (mv_store m))) = Ok (31, 35).
Proof. vm_compute; reflexivity. Qed.

(** ** C84: set_at<T> for an integer type of [t] bytes, wide fields, and layouts without bytes *)
Theorem C84_set_at : forall sizes ops l, Forall (fun s => s <= 8) sizes -> 0 < list_sum sizes -> mv_spec_run sizes [] ops = Some l ->
  exists m, mv_run sizes ops = Ok m /\ forall t i e z, i < length l -> e < length sizes ->
    (nth e sizes 0 <= Nat.max 4 t -> exists m', mv_block_set_t t m i e z = Ok m' /\ mv_size m' = Ok (length l) /\
       forall j f, j < length l -> f < length sizes ->
         mv_nested m' j f = Ok (if (j =? i) && (f =? e) then Z.to_N (z mod 256 ^ Z.of_nat (nth e sizes 0%nat)) else nth f (nth j l []) 0%N)) /\
    (Nat.max 4 t < nth e sizes 0 -> mv_block_set_t t m i e z = UB).
Proof. exact set_t_history. Qed.
Print Assumptions C84_set_at.
(** int written to fields of three and of five bytes *)
Example C84_set_at_ex : (do m <- mv_run [3; 5] [MVPush [7; 8]%N]; do m <- mv_block_set_t 4 m 0 0 (-2)%Z; do x <- mv_nested m 0 0; do y <- mv_nested m 0 1; Ok (x, y)) = Ok (16777214%N, 8%N) /\
  (do m <- mv_run [3; 5] [MVPush [7; 8]%N]; mv_block_set_t 4 m 0 1 9%Z) = UB /\
  (do m <- mv_run [3; 5] [MVPush [7; 8]%N]; do m <- mv_block_set_t 8 m 0 1 9%Z; mv_nested m 0 1) = Ok 9%N.
Proof. split; [|split]; vm_compute; reflexivity. Qed.
Theorem C84_wide_field : forall sizes bs i e, e < length sizes -> 8 < nth e sizes 0 ->
  mv_nested (MV (mv_table (mv_make sizes)) bs) i e = UB /\ forall v, mv_set_nested (MV (mv_table (mv_make sizes)) bs) i e v = UB.
Proof. exact wide_make. Qed.
Print Assumptions C84_wide_field.
Example C84_wide_field_ex : 8 < nth 1 [2; 9] 0.
Proof. simpl. lia. Qed.
Theorem C84_no_bytes : forall sizes bs, list_sum sizes = 0 -> let m := MV (mv_table (mv_make sizes)) bs in
  mv_size m = UB /\ mv_emplace_back m = UB /\ (forall vals, mv_push_back m vals = UB) /\ (forall n vals, mv_resize_v m n vals = UB).
Proof. exact zero_block. Qed.
Print Assumptions C84_no_bytes.
Example C84_no_bytes_ex : list_sum [0; 0] = 0.
Proof. reflexivity. Qed.
