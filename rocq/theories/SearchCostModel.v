(** The searches of SamcModel.v, TrieModel.v, FoModel.v and MultiBitModel.v once more, with the elements read from their arrays
    counted. SearchCost.v proves that leaving out the counters gives those models. *)
From Coq Require Import List NArith ZArith Arith Bool.
From Verif Require Import Base Spec CostBase BitUtilModel BitVectorModel SuccinctModel SamcModel TrieModel FoModel MultiBitModel QueryCostModel.
Import ListNotations.
Local Open Scope nat_scope.

(** Samc.hpp:308-311 and 430-433: two elements of head_ *)
Definition in_range_c (s : samc) (index d : nat) : cres bool :=
  count a <- paid (sm_headat s d);
  if a <=? index then count b <- paid (sm_headat s (d + 1)); cret (index <? b) else cret false.
(** Samc.hpp:322-330 and 444-452: an element of code_table_, two of head_ and one of storage_ *)
Fixpoint sm_descend_c (s : samc) (node d : nat) (key : list N) : cres (option nat) :=
  match key with
  | [] => cret (Some node)
  | c :: key =>
      count code <- paid (sm_code s d c);
      let target := node + N.to_nat code in
      count ok <- in_range_c s target (d + 1);
      if negb ok then cret None else
      count b <- paid (sm_check s target);
      if negb (b =? c)%N then cret None else sm_descend_c s target (d + 1) key
  end.
(** Samc.hpp:319-334, 441-457 *)
Definition sm_terminal_c (s : samc) (key : list N) : cres (option nat) :=
  count r <- sm_descend_c s 0 0 key;
  match r with
  | None => cret None
  | Some node =>
      count code <- paid (sm_code s (length key) 0%N);
      let terminal := node + N.to_nat code in
      count ok <- in_range_c s terminal (length key + 1);
      if negb ok then cret None else
      count b <- paid (sm_check s terminal); cret (if (b =? 0)%N then Some terminal else None)
  end.
Definition sm_accept_c (s : samc) (key : list N) : cres bool := count r <- sm_terminal_c s key; cret (match r with Some _ => true | None => false end).
(** Samc.hpp:439-459 *)
Definition sd_lookup_c (t : samc_dict) (key : list N) : cres (option N) :=
  count r <- sm_terminal_c (sd_samc t) key;
  match r with None => cret None | Some i => count id <- sb_rank_c (sd_leaves t) i; cret (Some id) end.
(** Samc.hpp:466: std::upper_bound by halving the range, as in libstdc++ and as its complexity requires *)
Fixpoint upper_bound_c (fuel : nat) (l : list nat) (x first len : nat) : cres nat :=
  match len with
  | O => cret first
  | S _ =>
      match fuel with
      | O => free Fuel
      | S fuel =>
          let half := len / 2 in
          count h <- paid (lget l (first + half));
          if x <? h then upper_bound_c fuel l x first half else upper_bound_c fuel l x (first + half + 1) (len - half - 1)
      end
  end.
(** Samc.hpp:467-472: an element of storage_ and one of code_table_ for each character *)
Fixpoint sd_climb_c (s : samc) (node d : nat) (text : list N) : cres (list N) :=
  match d with
  | O => cret text
  | S d => count c <- paid (sm_check s node); count code <- paid (sm_code s d c); if (N.of_nat node <? code)%N then match d with O => cret (c :: text) | S _ => free UB end else sd_climb_c s (node - N.to_nat code) d (c :: text)
  end.
(** Samc.hpp:461-475 *)
Definition sd_access_c (selw : N -> N -> res N) (t : samc_dict) (value : nat) : cres (list N) :=
  count node <- sb_select_c selw (sd_leaves t) value;
  let head := sm_head (sd_samc t) in
  count ub <- upper_bound_c (length head) head (N.to_nat node) 0 (length head);
  count text <- sd_climb_c (sd_samc t) (N.to_nat node) (ub - 1) [];
  match text with [] => free UB | _ => cret (removelast text) end.

(** graph_util.hpp:171-177: one node for each character *)
Fixpoint tr_walk_c (ns : list node) (i : nat) (key : list N) : cres (option nat) :=
  match key with
  | [] => cret (Some i)
  | c :: key => count n <- paid (lget ns i); let target := nd_target n c in if target =? 0 then cret None else tr_walk_c ns target key
  end.
(** graph_util.hpp:169-186 *)
Definition tr_traverse_index_c {A} (st : size_type) (t : trie A) (key : list N) : cres N :=
  count r <- tr_walk_c (tr_nodes t) 0 key;
  match r with
  | None => cret (2 ^ 64 - 1)%N
  | Some i =>
      count n <- paid (lget (tr_nodes t) i);
      let target := nd_target n 0%N in
      if target =? 0 then cret (2 ^ 64 - 1)%N else
      count n <- paid (lget (tr_nodes t) target); cret (nd_item_index st n)
  end.

(** FactorOracle.hpp:283-298: the next letter, the base, the target and its letter *)
Definition fo_image_c (beyond : list N) (o : foracle) (state : nat) (c : N) : cres (option nat) :=
  count a <- paid (fo_check (fo_chk o ++ beyond) (state + 1));
  if (a =? c)%N then cret (Some (state + 1)) else
  count b <- paid (lget (fo_base o) state);
  match b with
  | None => cret None
  | Some b =>
      count x <- paid (lget (fo_next o) (slot b c)); count x <- free (some_id x);
      if x <=? state then cret None else
      count k <- paid (fo_check (fo_chk o ++ beyond) x);
      cret (if (k =? c)%N then Some x else None)
  end.
(** FactorOracle.hpp:300-312 *)
Fixpoint fo_accept_from_c (beyond : list N) (o : foracle) (state : nat) (w : list N) : cres bool :=
  match w with
  | [] => cret true
  | c :: w => count s <- fo_image_c beyond o state c; match s with None => cret false | Some s => fo_accept_from_c beyond o s w end
  end.
Definition fo_accept_c (beyond : list N) (o : foracle) (w : list N) : cres bool := fo_accept_from_c beyond o 0 w.

(** MultiBitVector.hpp:136-138 *)
Definition mb_get_c (U : nat) (v : multibit) (index : nat) : cres N :=
  count w <- paid (lget (mb_bits v) (mb_abs U index));
  count x <- free (shr64 w (N.of_nat (mb_rel U index)));
  cret (N.land x (kBitsMask U)).
(** MultiBitVector.hpp:187-198: a tip is one element of its vector; the L2 count inside it is counted once more *)
Definition mb_rank_c (U : nat) (v : multibit) (index : nat) : cres N :=
  count type <- mb_get_c U v index;
  if (type =? 0)%N then free UB else
  count tips <- free (lget (mb_tips v) (N.to_nat type - 1));
  count t <- paid (lget tips (mb_block U index));
  let abs := mb_abs U index in
  let rel := mb_rel U index in
  count l2 <- paid (lget (tip_L2 t) (abs mod kBlocksInTipSize U));
  if rel =? 0 then cret (tip_L1 t + l2)%N else
  count w <- paid (lget (mb_bits v) abs);
  count m <- free (WidthMask (N.of_nat rel));
  cret (tip_L1 t + l2 + mb_popcnt U (N.to_nat type) (N.land w m))%N.
