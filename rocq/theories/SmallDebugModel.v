(** Heap, InitializableArray, MultiBitVector and MultipleVector in a build with assertions on: the functions that have an assertion, or call one that has.
    [Throw] stands for a failed assertion. *)
From Coq Require Import List NArith ZArith Arith Bool.
From Verif Require Import Base Spec Spec2 Spec3 MultiBitSpec BitUtilModel CalcModel FoDebugModel HeapModel InitArrayModel MultiBitModel MultipleModel.
Import ListNotations.
Local Open Scope nat_scope.

(** ** Heap.hpp *)
(** Heap.hpp:76-84 value, value_reference *)
Definition heap_value_d (base : list N) (id : nat) : res N :=
  do _ <- assert_that ((0 <? id) && (id <=? length base)); lget base (id - 1).
(** Heap.hpp:42-57 *)
Fixpoint heap_heapify_loop_d (asc : bool) (fuel : nat) (base : list N) (id : nat) : res (list N) :=
  match fuel with
  | O => Fuel
  | S fuel =>
      if length base / 2 <? id then Ok base
      else
        do m <- (if 2 * id + 1 <=? length base
                 then do a <- heap_value_d base (2 * id); do b <- heap_value_d base (2 * id + 1); Ok (if heap_test asc a b then 2 * id + 1 else 2 * id)
                 else Ok (2 * id));
        do x <- heap_value_d base id; do y <- heap_value_d base m;
        if heap_test asc x y then do base <- swap_at base (id - 1) (m - 1); heap_heapify_loop_d asc fuel base m else Ok base
  end.
Definition heap_heapify_d (asc : bool) (base : list N) (id : nat) : res (list N) := heap_heapify_loop_d asc (S (length base)) base id.
(** Heap.hpp:23-40, 59-63 *)
Definition heap_make_d (asc : bool) (l : list N) : res (list N) := foldM (heap_heapify_d asc) (rev (seq 1 (length l / 2))) l.
(** Heap.hpp:65-74 *)
Definition heap_push_d (asc : bool) (base : list N) (v : N) : res (list N) := heap_heapify_d asc (v :: base) 1.
Definition heap_pop_d (asc : bool) (base : list N) : res (list N) :=
  match base with
  | [] => UB
  | _ => do base <- swap_at base 0 (length base - 1);
         let base := firstn (length base - 1) base in heap_heapify_d asc base 1
  end.
Definition heap_step_d (asc : bool) (base : list N) (o : heap_op) : res (list N) :=
  match o with HPush v => heap_push_d asc base v | HPop => heap_pop_d asc base end.
Definition heap_run_d (asc : bool) (l : list N) (ops : list heap_op) : res (list N) := do b <- heap_make_d asc l; foldM (heap_step_d asc) ops b.

(** ** InitializableArray.hpp *)
Section InPlace.
Variables (w : N) (size : nat).
(** InitializableArray.hpp:194-199 with the assertion of line 195 *)
Definition ia_make_chain_d (s : inplace) (bi bj : nat) : res inplace :=
  do _ <- assert_that ((bi <? ia_b s) && (ia_b s <=? bj)); ia_make_chain w s bi bj.
(** InitializableArray.hpp:107-149 *)
Definition ia_set_d (s : inplace) (i : nat) (val : N) : res inplace :=
  let b := i / 2 in
  do k <- ia_chained_to size s b;
  if b <? ia_b s then
    match k with
    | None => ia_write_uca w size s i val
    | Some k =>
        do sj <- ia_extend w size s;
        let '(s, j) := sj in
        if b =? j then ia_write_uca w size s i val
        else do x <- ia_to s (2 * b); do s <- ia_put s (2 * j) x;
             do y <- ia_to s (2 * b + 1); do s <- ia_put s (2 * j + 1) y;
             do s <- ia_make_chain_d s j k; do s <- ia_init_block s b; ia_write_uca w size s i val
    end
  else
    match k with
    | Some k => ia_write_wca s i k val
    | None =>
        do sk <- ia_extend w size s;
        let '(s, k) := sk in
        if b =? k then ia_write_uca w size s i val
        else do s <- ia_init_block s b; do s <- ia_make_chain_d s k b; ia_write_wca s i k val
    end.
Definition ia_step_d (s : inplace) (o : ia_op N) : res inplace :=
  match o with IAFill v => Ok (ia_fill s v) | IASet i v => ia_set_d s i v end.
Definition ia_run_d (mem : list N) (v : N) (ops : list (ia_op N)) : res inplace := foldM ia_step_d ops (ia_make mem v).
End InPlace.

(** ** MultiBitVector.hpp *)
(** MultiBitVector.hpp:144-150 with the assertion of line 145 *)
Definition mb_set_d (U : nat) (v : multibit) (index : nat) (value : N) : res multibit :=
  do _ <- assert_that (value <=? kBitsMask U)%N; mb_set U v index value.
(** MultiBitVector.hpp:187-198 with the assertion of line 189 *)
Definition mb_rank_d (U : nat) (v : multibit) (index : nat) : res N :=
  do type <- mb_get U v index; do _ <- assert_that (0 <? type)%N; mb_rank U v index.
Definition mb_step_d (U : nat) (v : multibit) (o : mb_op_b) : res multibit :=
  match o with MBDo (MBSet i x) => mb_set_d U v i x | MBDo (MBResize i) => Ok (mb_resize U v i) | MBBuild => mb_build U v end.
Definition mb_run_d (U : nat) (ops : list mb_op_b) : res multibit := foldM (mb_step_d U) ops (mb_default U).

(** ** MultipleVector.hpp *)
(** The common assertions of lines 271-272 and 280-281; the second calls size() *)
Definition mv_in_range_d (m : multiple) (i e : nat) : res unit :=
  do _ <- assert_that (e <? length (mv_table m)); do sz <- mv_size m; assert_that (i <? sz).
(** MultipleVector.hpp:269-276 with the assertions of lines 271-274; [||] does not evaluate SizeFitsInBytes for an element of eight bytes *)
Definition mv_set_nested_d (m : multiple) (i e : nat) (v : N) : res multiple :=
  do _ <- mv_in_range_d m i e;
  do el <- lget (mv_table m) e;
  do fits <- (if snd el =? 8 then Ok true else do n <- SizeFitsInBytes v; Ok (n <=? snd el));
  do _ <- assert_that fits;
  mv_set_nested m i e v.
(** MultipleVector.hpp:278-283 *)
Definition mv_nested_d (m : multiple) (i e : nat) : res N := do _ <- mv_in_range_d m i e; mv_nested m i e.
(** MultipleVector.hpp:75-80, 154-159: the assertions of _get and get_, after the callers (lines 36, 41, 140, 145) have read element_table_[Id].size *)
Definition mv_block_restricted_get_d (m : multiple) (t i e : nat) : res N :=
  do p <- mv_block m i; do el <- lget (mv_table m) e; let width := Nat.min (snd el) t in
  do _ <- assert_that (e <? length (mv_table m)); do _ <- assert_that (width <=? snd el); mv_read_bytes (mv_bytes m) (p + fst el) width.
Definition mv_block_get_d (m : multiple) (i e : nat) : res N :=
  do p <- mv_block m i; do el <- lget (mv_table m) e; let width := snd el in
  do _ <- assert_that (e <? length (mv_table m)); do _ <- assert_that (width <=? snd el); mv_read_bytes (mv_bytes m) (p + fst el) width.
(** MultipleVector.hpp:98-103, the same in _set, called from lines 51 and 56; set_at (lines 110-118) has no assertion *)
Definition mv_block_set_d (m : multiple) (i e : nat) (v : N) : res multiple :=
  do p <- mv_block m i; do el <- lget (mv_table m) e; let width := snd el in
  do _ <- assert_that (e <? length (mv_table m)); do _ <- assert_that (width <=? snd el);
  do bs <- mv_write_bytes (mv_bytes m) (p + fst el) width v; Ok (MV (mv_table m) bs).
Definition mv_block_restricted_set_d (m : multiple) (t i e : nat) (v : N) : res multiple :=
  do p <- mv_block m i; do el <- lget (mv_table m) e; let width := Nat.min (snd el) t in
  do _ <- assert_that (e <? length (mv_table m)); do _ <- assert_that (width <=? snd el);
  do bs <- mv_write_bytes (mv_bytes m) (p + fst el) width v; Ok (MV (mv_table m) bs).
Definition mv_step_d (m : multiple) (o : mv_op) : res multiple :=
  match o with
  | MVSet i e v => mv_set_nested_d m i e v
  | MVBlockSet i e v => mv_block_set_d m i e v
  | MVRestrictedSet t i e v => mv_block_restricted_set_d m t i e v
  | _ => mv_step m o
  end.
Definition mv_run_d (sizes : list nat) (ops : list mv_op) : res multiple := foldM mv_step_d ops (mv_make sizes).

(** ** bit_util.hpp *)
(** bit_util.hpp:33-36 with the assertion of line 34 *)
Definition WidthMask_d (w : N) : res N := do _ <- assert_that (w <=? 64)%N; WidthMask w.
(** bit_util.hpp:41-44 with the assertion of line 42 *)
Definition OffsetMask_d (o : N) : res N := do _ <- assert_that (o <? 64)%N; OffsetMask o.
