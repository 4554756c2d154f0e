(** Property C149: MultipleVector blocks assigned from lists, and objects whose layout is set more than once (MultipleVector.hpp). *)
From Coq Require Import List NArith ZArith Lia Bool Arith.
From Verif Require Import Base Spec3 StreamModel MultipleModel MultipleModel3 MultipleProof MultipleProof3.
Import ListNotations.
Local Open Scope nat_scope.

(** The stores of block(i) = {vals...}: fields with a value get it, everything else keeps its own. *)
Theorem C149_assign_stores_partial : forall sizes ops l, Forall (fun s => s <= 8) sizes -> 0 < list_sum sizes -> mv_spec_run sizes [] ops = Some l ->
  exists m, mv_run sizes ops = Ok m /\ forall i vals, i < length l -> length vals <= length sizes ->
    exists m', mv_assign_stores m i vals = Ok m' /\ mv_size m' = Ok (length l) /\
      forall j f, j < length l -> f < length sizes ->
        mv_nested m' j f = Ok (if (j =? i) && (f <? length vals) then (nth f vals 0 mod 256 ^ N.of_nat (nth f sizes 0%nat))%N else nth f (nth j l []) 0%N).
Proof. exact assign_stores. Qed.
Example C149_assign_stores_ex : mv_spec_run [2; 0; 1] [] [MVPush [515; 0; 7]%N; MVPush [1; 0; 2]%N] = Some [[515; 0; 7]; [1; 0; 2]]%N /\
  (do m <- mv_run [2; 0; 1] [MVPush [515; 0; 7]%N; MVPush [1; 0; 2]%N]; do m <- mv_assign_stores m 0 [70000; 9]%N;
   mapM (fun p => mv_nested m (fst p) (snd p)) [(0, 0); (0, 1); (0, 2); (1, 0); (1, 2)]) = Ok [4464; 0; 7; 1; 2]%N.
Proof. split; vm_compute; reflexivity. Qed.
(** More values than fields read an entry of the layout that is not there. *)
Theorem C149_assign_long : forall m i vals, length (mv_table m) < length vals -> mv_assign_stores m i vals = UB.
Proof. exact assign_long. Qed.
Example C149_assign_long_ex : (do m <- mv_run [2; 1] [MVPush [515; 7]%N]; Ok (length (mv_table m))) = Ok 2 /\ 2 < length [1; 2; 3]%N.
Proof. split; [vm_compute; reflexivity|simpl; lia]. Qed.
(** Even when every store is defined the assignment is not: its body ends without a return. *)
Theorem C149_assign_refuted : exists m m', mv_run [2; 1] [MVPush [515; 7]%N] = Ok m /\ mv_assign_stores m 0 [258; 3]%N = Ok m' /\
  mv_nested m' 0 0 = Ok 258%N /\ mv_assign m 0 [258; 3]%N = UB.
Proof. eexists _, _. split; [vm_compute; reflexivity|]. split; [vm_compute; reflexivity|]. split; vm_compute; reflexivity. Qed.

(** A layout set over another one, whatever the object holds: the bytes are cut anew into blocks of the last layout, whose fields are
    numbered behind those of the earlier ones; the earlier fields read at their old places in the new blocks, if these exist. *)
Theorem C149_relayout : forall t bs sizes, Forall (fun b => (b < 256)%N) bs -> 0 < list_sum sizes ->
  let B := list_sum sizes in let m' := mv_set_element_sizes (MV t bs) sizes in
  mv_size m' = Ok (length bs / B) /\
  (forall i e, i < length bs / B -> e < length sizes -> nth e sizes 0 <= 8 ->
     let x := le_value (firstn (nth e sizes 0) (skipn (i * B + list_sum (firstn e sizes)) bs)) in
     mv_nested m' i (length t + e) = Ok x /\ mv_block_get m' i (length t + e) = Ok x) /\
  (forall i e, e < length t -> let pos := fst (nth e t (0, 0)) in let s := snd (nth e t (0, 0)) in
     (s <= 8 -> i * B + pos + s <= length bs -> mv_nested m' i e = Ok (le_value (firstn s (skipn (i * B + pos) bs)))) /\
     (0 < s -> length bs < i * B + pos + s -> mv_nested m' i e = UB)).
Proof. exact relayout. Qed.
Example C149_relayout_ex : (do m <- mv_run [2; 2] [MVPush [515; 1286]%N]; let m := mv_set_element_sizes m [1; 1] in do n <- mv_size m;
   do r <- mapM (fun p => mv_nested m (fst p) (snd p)) [(0, 2); (0, 3); (1, 2); (1, 3); (0, 0); (0, 1); (1, 0)]; Ok (n, r, mv_nested m 1 1)) =
  Ok (2, [3; 2; 6; 5; 515; 1286; 1286]%N, UB).
Proof. vm_compute. reflexivity. Qed.

(** Loading into any object: what was stored is there, its fields numbered behind those the object had. *)
Theorem C149_load_used : forall target sizes ops l m rest, Forall (fun s => s <= 8) sizes -> 0 < list_sum sizes ->
  mv_spec_run sizes [] ops = Some l -> mv_run sizes ops = Ok m -> mv_fits m ->
  exists m', mv_load target (mv_store m ++ rest) = Ok (m', rest) /\ mv_size m' = Ok (length l) /\
    forall i e, i < length l -> e < length sizes ->
      mv_nested m' i (length (mv_table target) + e) = Ok (nth e (nth i l []) 0%N) /\
      mv_block_get m' i (length (mv_table target) + e) = Ok (nth e (nth i l []) 0%N).
Proof. exact load_used. Qed.
Example C149_load_used_ex : (do m <- mv_run [2; 1] [MVPush [515; 7]%N; MVPush [1; 2]%N]; do r <- mv_load (mv_make [1; 1; 1]) (mv_store m ++ [42%N]);
  do x <- mapM (fun p => mv_nested (fst r) (fst p) (snd p)) [(0, 3); (0, 4); (1, 3); (1, 4); (0, 0)]; Ok (x, snd r)) = Ok ([515; 7; 1; 2; 3]%N, [42%N]).
Proof. vm_compute; reflexivity. Qed.

Print Assumptions C149_assign_stores_partial.
Print Assumptions C149_assign_long.
Print Assumptions C149_assign_refuted.
Print Assumptions C149_relayout.
Print Assumptions C149_load_used.
