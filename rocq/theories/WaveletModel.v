(** Model of WaveletTree.hpp. The element type T is an unsigned integer type of at most 64 bits. The outer
    loop variable (an int) is taken not to overflow. [id] is an int; with height 31 the last update of [id]
    leaves its range, but that value is never used. *)
From Coq Require Import List NArith ZArith Arith Bool.
From Verif Require Import Base Spec BitUtilModel CalcModel BitVectorModel SuccinctModel FitVectorModel.
Import ListNotations.
Local Open Scope nat_scope.

(** WaveletTree.hpp:24-27 (size_ is never assigned) *)
Record wavelet := WT { wt_height : nat; wt_leafs : N; wt_nodes : list sbv }.

Definition next_id (id : nat) (bit : bool) : nat := 2 * id + Nat.b2n bit.

(** WaveletTree.hpp:41-47, one value; [k] is height_ - depth *)
Fixpoint wt_insert (k : nat) (nodes : list bitvec) (id : nat) (value : N) : res (list bitvec) :=
  match k with
  | O => Ok nodes
  | S k =>
      let bit := N.testbit value (N.of_nat k) in
      do n <- lget nodes (id - 1);
      do n' <- bv_push_back n bit;
      do nodes' <- lset nodes (id - 1) n';
      wt_insert k nodes' (next_id id bit) value
  end.

(** WaveletTree.hpp:31-53; [1U << height] with height of 32 or more is undefined *)
Definition wt_make (l : list N) : res wavelet :=
  match l with
  | [] => UB
  | _ =>
      let max_char := max_element l in
      do height <- SizeFitsInBits max_char;
      if 32 <=? height then UB else
      do src <- foldM (fun nodes v => wt_insert height nodes 1 v) l (repeat bv_default (2 ^ height - 1));
      do nodes <- mapM (sb_build false) src;
      Ok (WT height (wrap64 (max_char + 1)) nodes)
  end.

(** the step shared by all queries: WaveletTree.hpp:64, 77, 89, 102 *)
Definition wt_child (n : sbv) (bit : bool) (idx : nat) : res nat :=
  do r <- (if negb bit then sb_rank0 n idx else sb_rank n idx); Ok (N.to_nat r).

(** WaveletTree.hpp:56-69; [k] is height_ - depth, [value] a uint8_t *)
Fixpoint wt_get_loop (k : nat) (nodes : list sbv) (id idx : nat) (value : N) : res N :=
  match k with
  | O => UB (* height_ - 1 wraps: not reached, heights are positive *)
  | S O =>
      do n <- lget nodes (id - 1);
      do bit <- sb_get n idx;
      Ok (N.lor value (N.b2n bit) mod 256)%N
  | S k =>
      do n <- lget nodes (id - 1);
      do bit <- sb_get n idx;
      let value := (N.lor value (N.shiftl (N.b2n bit) (N.of_nat k)) mod 256)%N in
      do idx <- wt_child n bit idx;
      wt_get_loop k nodes (next_id id bit) idx value
  end.
Definition wt_get (t : wavelet) (index : nat) : res N := wt_get_loop (wt_height t) (wt_nodes t) 1 index 0%N.

(** WaveletTree.hpp:72-81 *)
Fixpoint wt_rank_loop (k : nat) (nodes : list sbv) (id idx : nat) : res nat :=
  match k with
  | O => Ok idx
  | S k =>
      do n <- lget nodes (id - 1);
      do bit <- sb_get n idx;
      do idx <- wt_child n bit idx;
      wt_rank_loop k nodes (next_id id bit) idx
  end.
Definition wt_rank (t : wavelet) (index : nat) : res nat := wt_rank_loop (wt_height t) (wt_nodes t) 1 index.

(** WaveletTree.hpp:83-93 *)
Fixpoint wt_rank_c_loop (k : nat) (nodes : list sbv) (c : N) (id idx : nat) : res nat :=
  match k with
  | O => Ok idx
  | S k =>
      do n <- lget nodes (id - 1);
      let bit := N.testbit c (N.of_nat k) in
      do idx <- wt_child n bit idx;
      wt_rank_c_loop k nodes c (next_id id bit) idx
  end.
Definition wt_rank_c (t : wavelet) (c : N) (index : nat) : res nat := wt_rank_c_loop (wt_height t) (wt_nodes t) (c mod 256) 1 index.

(** WaveletTree.hpp:95-107; the value is an int and is cut to uint8_t in the result *)
Fixpoint wt_access_rank_loop (k : nat) (nodes : list sbv) (id idx : nat) (value : N) : res (N * nat) :=
  match k with
  | O => Ok (value mod 256, idx)%N
  | S k =>
      do n <- lget nodes (id - 1);
      do bit <- sb_get n idx;
      let value := N.lor value (N.shiftl (N.b2n bit) (N.of_nat k)) in
      do idx <- wt_child n bit idx;
      wt_access_rank_loop k nodes (next_id id bit) idx value
  end.
Definition wt_access_and_rank (t : wavelet) (index : nat) : res (N * nat) :=
  wt_access_rank_loop (wt_height t) (wt_nodes t) 1 index 0%N.

(** WaveletTree.hpp:109-111 *)
Definition wt_size (t : wavelet) : res nat := do n <- lget (wt_nodes t) 0; Ok (sb_size n).

(** WaveletTree.hpp:113-118 *)
Definition wt_node_diff (node diff_height : N) : res N :=
  do node_depth <- SizeFitsInBits node;
  do ti <- WidthMask (N.of_nat node_depth);
  do fi <- WidthMask (wsub (N.of_nat node_depth) diff_height);
  Ok (wsub ti fi).
