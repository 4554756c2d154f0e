(** The queries of SuccinctModel.v, WaveletModel.v, FitVectorModel.v and DacModel.v once more, with the words read from
    the arrays counted: the bits, the rank directory and the select samples of a SuccinctBitVector, the words of a
    FitVector. QueryCost.v proves that leaving out the counters gives those models. *)
From Coq Require Import List NArith ZArith Arith Bool.
From Verif Require Import Base Spec CostBase BitUtilModel BitVectorModel SuccinctModel FitVectorModel WaveletModel DacModel.
Import ListNotations.
Local Open Scope nat_scope.

(** BitReference.hpp:34-36, 74-76 with BitVector.hpp:65-71 *)
Definition bv_get_c (v : bitvec) (i : nat) : cres bool :=
  count r <- free (make_ref i); count w <- paid (wgetZ (bv_words v) (ref_seg r)); cret (negb (N.eqb (N.land w (ref_mask r)) 0)).
Definition sb_get_c (s : sbv) (i : nat) : cres bool := bv_get_c (sb_bits s) i.
(** SuccinctBitVector.hpp:135, 168-170 *)
Definition second_tip_c (block : list N) (idx : nat) : cres N :=
  count b <- paid (lget block (idx / 8 * 2 + 1));
  count x <- free (shr64 b (N.of_nat (63 - 9 * (idx mod 8))));
  cret (N.land x width_mask9).
(** SuccinctBitVector.hpp:130-137 *)
Definition sb_rank_c (s : sbv) (index : nat) : cres N :=
  let block_index := index / 512 * 2 in
  count b <- paid (lget (sb_block s) block_index);
  count t <- second_tip_c (sb_block s) (index / 64);
  count w <- paid (lget (bv_words (sb_bits s)) (index / 64));
  count c <- free (cnt64 w (N.of_nat (index mod 64)));
  cret (b + t + c)%N.
(** SuccinctBitVector.hpp:46 *)
Definition sb_rank0_c (s : sbv) (index : nat) : cres N :=
  count r <- sb_rank_c s index; cret (wsub (N.of_nat index) r).
(** SuccinctBitVector.hpp:157-164 *)
Fixpoint block_search_c (fuel : nat) (block : list N) (i : N) (lo hi : nat) : cres nat :=
  if lo + 1 <? hi then
    match fuel with
    | O => free Fuel
    | S fuel =>
        let center := (lo + hi) / 2 in
        count b <- paid (lget block (center * 2));
        if (i <? b)%N then block_search_c fuel block i lo center else block_search_c fuel block i center hi
    end
  else cret lo.
(** SuccinctBitVector.hpp:171-175 *)
Fixpoint tip_scan_c (k : nat) (block : list N) (size : nat) (i : N) (lo offset : nat) : cres nat :=
  match k with
  | O => cret offset
  | S k =>
      if (offset <? 8) && (lo * 8 + offset <? size / 64 + 1) then
        count t <- second_tip_c block (lo * 8 + offset);
        if (t <? i)%N then tip_scan_c k block size i lo (S offset) else cret offset
      else cret offset
  end.
(** SuccinctBitVector.hpp:146-182 *)
Definition sb_select_c (selw : N -> N -> res N) (s : sbv) (index : nat) : cres N :=
  count lr <-
    (if negb (length (sb_tips s) =? 0) then
       count l <- paid (lget (sb_tips s) (index / 512));
       count r <- paid (lget (sb_tips s) (index / 512 + 1));
       cret (N.to_nat l, N.to_nat r + 1)
     else cret (0, sb_num_blocks s));
  let '(lo, hi) := lr in
  count lo <- block_search_c (length (sb_block s)) (sb_block s) (N.of_nat index) lo hi;
  count b <- paid (lget (sb_block s) (lo * 2));
  let i := wsub (N.of_nat index + 1) b in
  count offset <- tip_scan_c 7 (sb_block s) (sb_size s) i lo 1;
  let offset := offset - 1 in
  count t <- second_tip_c (sb_block s) (lo * 8 + offset);
  let i := wsub i t in
  let ret := lo * 512 + offset * 64 in
  count w <- paid (lget (bv_words (sb_bits s)) (ret / 64));
  count p <- free (selw w i);
  cret (wsub (N.of_nat ret + p) 1).

(** WaveletTree.hpp:64, 77, 89, 102 *)
Definition wt_child_c (n : sbv) (bit : bool) (idx : nat) : cres nat :=
  count r <- (if negb bit then sb_rank0_c n idx else sb_rank_c n idx); cret (N.to_nat r).
(** WaveletTree.hpp:56-69 *)
Fixpoint wt_get_loop_c (k : nat) (nodes : list sbv) (id idx : nat) (value : N) : cres N :=
  match k with
  | O => free UB
  | S O =>
      count n <- free (lget nodes (id - 1));
      count bit <- sb_get_c n idx;
      cret (N.lor value (N.b2n bit) mod 256)%N
  | S k =>
      count n <- free (lget nodes (id - 1));
      count bit <- sb_get_c n idx;
      let value := (N.lor value (N.shiftl (N.b2n bit) (N.of_nat k)) mod 256)%N in
      count idx <- wt_child_c n bit idx;
      wt_get_loop_c k nodes (next_id id bit) idx value
  end.
Definition wt_get_c (t : wavelet) (index : nat) : cres N := wt_get_loop_c (wt_height t) (wt_nodes t) 1 index 0%N.
(** WaveletTree.hpp:83-93 *)
Fixpoint wt_rank_c_loop_c (k : nat) (nodes : list sbv) (c : N) (id idx : nat) : cres nat :=
  match k with
  | O => cret idx
  | S k =>
      count n <- free (lget nodes (id - 1));
      let bit := N.testbit c (N.of_nat k) in
      count idx <- wt_child_c n bit idx;
      wt_rank_c_loop_c k nodes c (next_id id bit) idx
  end.
Definition wt_rank_c_c (t : wavelet) (c : N) (index : nat) : cres nat := wt_rank_c_loop_c (wt_height t) (wt_nodes t) (c mod 256) 1 index.

(** BitsReference.hpp:38-44 *)
Definition bits_read_c (ws : list N) (seg off w : nat) : cres N :=
  count m <- free (WidthMask (N.of_nat w));
  count x <- paid (lget ws seg);
  count a <- free (shr64 x (N.of_nat off));
  if w + off <=? 64 then cret (N.land a m)
  else
    count y <- paid (lget ws (seg + 1));
    count b <- free (shl64 y (N.of_nat (64 - off)));
    cret (N.land (N.lor a b) m).
(** FitVector.hpp:87-89 *)
Definition fv_get_c (v : fitvec) (i : nat) : cres N :=
  bits_read_c (fv_words v) (i * fv_width v / 64) (i * fv_width v mod 64) (fv_width v).
(** DacVector.hpp:300-310 *)
Fixpoint dac_get_deep_c (units : list nat) (layers : list fitvec) (paths : list sbv) (shift_bits i : nat) (value : N) : cres N :=
  match units with
  | [] => cret value
  | u :: us =>
      match paths with
      | [] => free UB
      | p :: ps =>
          count b <- sb_get_c p i;
          if negb b then cret value else
          count r <- sb_rank_c p i;
          match layers with
          | [] => free UB
          | L :: Ls =>
              count unit <- fv_get_c L (N.to_nat r);
              count s <- free (shl64 unit (N.of_nat shift_bits));
              dac_get_deep_c us Ls ps (shift_bits + u) (N.to_nat r) (N.lor value s)
          end
      end
  end.
(** DacVector.hpp:298-312 *)
Definition dac_get_c (d : dac) (index : nat) : cres N :=
  match dac_num d with
  | None => free UB
  | Some n =>
      count L0 <- free (lget (dac_layers d) 0);
      count v <- fv_get_c L0 index;
      count u0 <- free (lget (dac_units d) 0);
      dac_get_deep_c (skipn 1 (firstn n (dac_units d))) (skipn 1 (dac_layers d)) (dac_paths d) u0 index v
  end.
