(** Properties C98 to C101 (Heap.hpp, InitializableArray.hpp, MultiBitVector.hpp, MultipleVector.hpp and bit_util.hpp with assertions on). *)
From Coq Require Import List NArith ZArith Lia Bool Arith.
From Verif Require Import Base Spec Spec2 Spec3 MultiBitSpec HeapModel InitArrayModel MultiBitModel MultipleModel SmallDebugModel SmallDebug.
Import ListNotations.
Local Open Scope nat_scope.

(** ** C98 *)
Theorem C98_heapify : forall asc base id, heap_heapify_d asc base id = if id =? 0 then Throw else heap_heapify asc base id.
Proof. intros asc. exact (proj1 (heap_debug asc)). Qed.
Print Assumptions C98_heapify.
Theorem C98_heap : forall asc l ops, heap_run_d asc l ops = heap_run asc l ops.
Proof. intros asc. exact (proj2 (heap_debug asc)). Qed.
Print Assumptions C98_heap.
Example C98_heap_ex : heap_run_d true [5; 3; 9; 1]%N [HPop; HPush 2%N; HPop; HPop] = Ok [5; 9]%N /\ heap_heapify_d true [] 0 = Throw /\ heap_heapify_d true [4; 2; 1]%N 1 = Ok [1; 2; 4]%N.
Proof. split; [|split]; vm_compute; reflexivity. Qed.
(** whatever the memory holds and whichever indices are written *)
Theorem C98_initializable_array : forall w size mem v ops, ia_run_d w size mem v ops = ia_run w size mem v ops.
Proof. exact ia_debug. Qed.
Print Assumptions C98_initializable_array.
Example C98_initializable_array_ex : let ops := [IASet 5 3; IASet 0 1; IASet 4 9; IAFill 2; IASet 3 8]%N in
  (do s <- ia_run_d 8 6 [4; 0; 250; 1; 0; 7]%N 7%N ops; mapM (ia_get (next_unsigned 8) 6 s) [0; 1; 2; 3; 4; 5]) = Ok [2; 2; 2; 8; 2; 2]%N.
Proof. vm_compute. reflexivity. Qed.

(** ** C99 *)
Theorem C99_multibit : forall U ops, U = 1 \/ U = 2 \/ U = 3 ->
  (Forall (mb_op_fits U) (writes ops) -> mb_run_d U ops = mb_run_b U ops /\ exists v, mb_run_b U ops = Ok v) /\
  (~ Forall (mb_op_fits U) (writes ops) -> mb_run_d U ops = Throw).
Proof. exact multibit_debug. Qed.
Print Assumptions C99_multibit.
(** a value of three bits written to an element of two overwrites the next element in the release build *)
Example C99_multibit_ex : ~ Forall (mb_op_fits 2) (writes [MBDo (MBSet 0 5%N); MBBuild]) /\ (do v <- mb_run_b 2 [MBDo (MBSet 0 5%N)]; mb_get 2 v 1) = Ok 1%N.
Proof. split; [|vm_compute; reflexivity]. intros F. cbn [writes] in F. inversion F as [|? ? H]. cbn [mb_op_fits] in H. revert H. vm_compute. discriminate. Qed.
Theorem C99_multibit_rank : forall U ops, U = 1 \/ U = 2 \/ U = 3 -> Forall (mb_op_fits U) (writes ops) -> just_built ops ->
  let cap := mb_capacity (64 / U) (rev (writes ops)) in let value := mb_last (64 / U) (rev (writes ops)) in
  exists v, mb_run_d U ops = Ok v /\ forall i, i < cap ->
    mb_rank_d U v i = if (value i =? 0)%N then Throw else Ok (N.of_nat (count_if (fun j => (value j =? value i)%N) (seq 0 i))).
Proof. exact multibit_rank_debug. Qed.
Print Assumptions C99_multibit_rank.
Example C99_multibit_rank_ex : let ops := [MBDo (MBSet 3 5); MBDo (MBSet 40 5); MBBuild]%N in
  (do v <- mb_run_d 3 ops; mb_rank_d 3 v 40) = Ok 1%N /\ (do v <- mb_run_d 3 ops; mb_rank_d 3 v 39) = Throw.
Proof. split; vm_compute; reflexivity. Qed.

(** ** C100 *)
Theorem C100_multiple : forall sizes ops l, Forall (fun s => s <= 8) sizes -> 0 < list_sum sizes -> mv_spec_run sizes [] ops = Some l ->
  Forall (fun o => match o with MVSet _ e v => nth e sizes 0 = 8 \/ 1 <= nth e sizes 0 /\ (v < 256 ^ N.of_nat (nth e sizes 0%nat))%N | _ => True end) ops ->
  exists m, mv_run_d sizes ops = Ok m /\ mv_run sizes ops = Ok m /\
    (forall i e, mv_nested_d m i e = if (e <? length sizes) && (i <? length l) then Ok (nth e (nth i l []) 0%N) else Throw) /\
    (forall i e v, length l <= i \/ length sizes <= e -> mv_set_nested_d m i e v = Throw) /\
    (forall i e v, i < length l -> e < length sizes -> nth e sizes 0 < 8 -> (v < 2 ^ 56)%N -> nth e sizes 0 = 0 \/ (256 ^ N.of_nat (nth e sizes 0%nat) <= v)%N -> mv_set_nested_d m i e v = Throw) /\
    (forall i e v, i < length l -> e < length sizes -> nth e sizes 0 < 8 -> (2 ^ 56 <= v)%N -> mv_set_nested_d m i e v = UB) /\
    (forall i e t v, mv_block_get_d m i e = mv_block_get m i e /\ mv_block_restricted_get_d m t i e = mv_block_restricted_get m t i e /\
       mv_block_set_d m i e v = mv_block_set m i e v /\ mv_block_restricted_set_d m t i e v = mv_block_restricted_set m t i e v).
Proof. exact multiple_debug. Qed.
Print Assumptions C100_multiple.
Example C100_multiple_ex : let run o := mv_run_d [2; 0; 8] [MVPush [70000; 0; 9]%N; MVEmplace; o] in
  (do m <- run (MVSet 1 0 65535); mv_nested_d m 1 0) = Ok 65535%N /\ run (MVSet 1 0 65536) = Throw /\ run (MVSet 1 1 0) = Throw /\ run (MVSet 2 0 1) = Throw /\ run (MVSet 0 0 (2 ^ 56)%N) = UB /\
  (do m <- run (MVSet 1 2 (2 ^ 63)%N); mv_nested_d m 1 2) = Ok (2 ^ 63)%N.
Proof. cbv zeta. do 5 (split; [vm_compute; reflexivity|]). vm_compute. reflexivity. Qed.

(** ** C101: the assertion of WidthMask lets the undefined width 64 pass *)
Theorem C101_masks : forall w,
  ((w < 64)%N -> WidthMask_d w = Ok (2 ^ w - 1)%N /\ OffsetMask_d w = Ok (2 ^ w)%N) /\
  WidthMask_d 64 = UB /\ OffsetMask_d 64 = Throw /\ ((64 < w)%N -> WidthMask_d w = Throw /\ OffsetMask_d w = Throw).
Proof. exact masks_debug. Qed.
Print Assumptions C101_masks.
Example C101_masks_ex : WidthMask_d 10 = Ok 1023%N /\ WidthMask_d 65 = Throw.
Proof. split; vm_compute; reflexivity. Qed.
