(** Model of SuccinctBitVector.hpp.
    Counts are [N] without wrapping: they are bounded by the number of bits, which fits size_t. *)
From Coq Require Import List NArith ZArith Arith Bool.
From Verif Require Import Base Spec BitUtilModel BitVectorModel.
Import ListNotations.
Local Open Scope nat_scope.

(** SuccinctBitVector.hpp:19-25 *)
Record sbv := SBV { sb_bits : bitvec; sb_block : list N; sb_tips : list N }.

(** SuccinctBitVector.hpp:28 default constructor: no block entries, no tips *)
Definition sb_default : sbv := SBV bv_default [] [].

(** SuccinctBitVector.hpp:40 operator[] *)
Definition sb_get (s : sbv) (i : nat) : res bool := bv_get (sb_bits s) i.
(** SuccinctBitVector.hpp:50 size *)
Definition sb_size (s : sbv) : nat := bv_size (sb_bits s).
(** SuccinctBitVector.hpp:54 num_blocks *)
Definition sb_num_blocks (s : sbv) : nat := length (sb_block s) / 2.

(** SuccinctBitVector.hpp:102 [sum_word |= sum << (63 - 9*(i%8))] *)
Definition put_tip (sum_word sum : N) (i : nat) : res N :=
  do x <- shl64 sum (N.of_nat (63 - 9 * (i mod 8))); Ok (N.lor sum_word x).

(** SuccinctBitVector.hpp:96-104, one iteration of the block loop; state (block, sum, sum_word).
    [data] has been advanced i times by the end of iteration i. *)
Definition block_step (ws : list N) (st : list N * N * N) (i : nat) : res (list N * N * N) :=
  let '(block, sum, sum_word) := st in
  do st <-
    (if i mod 8 =? 0 then
       let j := i / 8 * 2 in
       do block <- lset block (j - 1) sum_word;
       do b <- lget block (j - 2);
       do block <- lset block j (b + sum)%N;
       Ok (block, 0%N, 0%N)
     else
       do sum_word <- put_tip sum_word sum i;
       Ok (block, sum, sum_word));
  let '(block, sum, sum_word) := st in
  do w <- lget ws i;
  Ok (block, (sum + popcnt64 w)%N, sum_word).

(** SuccinctBitVector.hpp:106-115 after the loop *)
Definition block_finish (st : list N * N * N) (i : nat) : res (list N) :=
  let '(block, sum, sum_word) := st in
  let j := i / 8 * 2 in
  if negb (i mod 8 =? 0) then
    do sum_word <- put_tip sum_word sum i;
    lset block (j + 1) sum_word
  else
    do block <- lset block (j - 1) sum_word;
    do b <- lget block (j - 2);
    do block <- lset block j (b + sum)%N;
    lset block (j + 1) 0%N.

(** SuccinctBitVector.hpp:120-125 one iteration of the sampling loop; state (tips, threshold).
    The stored index is truncated to 32 bits. *)
Definition tips_step (block : list N) (st : list N * N) (j : nat) : res (list N * N) :=
  let '(tips, threshold) := st in
  do b <- lget block (j * 2);
  if (threshold <=? b)%N then Ok (tips ++ [(N.of_nat (j - 1) mod 2 ^ 32)%N], (threshold + 512)%N)
  else Ok (tips, threshold).

(** SuccinctBitVector.hpp:117-127 (UseSelect) *)
Definition build_tips (block : list N) (nb : nat) : res (list N) :=
  do st <- foldM (tips_step block) (seq 1 (nb - 1)) ([0%N], 512%N);
  Ok (fst st ++ [(N.of_nat (nb - 1) mod 2 ^ 32)%N]).

(** SuccinctBitVector.hpp:87-115 the rank directory of a non-empty vector *)
Definition build_block (v : bitvec) : res (list N) :=
  let nb := bv_size v / 512 + 1 in
  let ws := bv_words v in
  do w0 <- lget ws 0;
  let n := bv_size v / 64 in
  do st <- foldM (block_step ws) (seq 1 (n - 1)) (repeat 0%N (nb * 2), popcnt64 w0, 0%N);
  (* after the loop i is n, or 1 when n = 0 *)
  block_finish st (Nat.max 1 n).

(** SuccinctBitVector.hpp:80-128 constructor from a BitVector *)
Definition sb_build (use_select : bool) (v : bitvec) : res sbv :=
  if bv_size v =? 0 then Ok (SBV v (repeat 0%N 2) []) else
  do block <- build_block v;
  do tips <- (if use_select then build_tips block (bv_size v / 512 + 1) else Ok []);
  Ok (SBV v block tips).

(** SuccinctBitVector.hpp:135 and 168-170: the 9-bit tip of word [idx] *)
Definition second_tip (block : list N) (idx : nat) : res N :=
  do b <- lget block (idx / 8 * 2 + 1);
  do x <- shr64 b (N.of_nat (63 - 9 * (idx mod 8)));
  Ok (N.land x width_mask9).

(** SuccinctBitVector.hpp:130-137 rank_1 (and rank, 44) *)
Definition sb_rank (s : sbv) (index : nat) : res N :=
  let block_index := index / 512 * 2 in
  do b <- lget (sb_block s) block_index;
  do t <- second_tip (sb_block s) (index / 64);
  do w <- lget (bv_words (sb_bits s)) (index / 64);
  do c <- cnt64 w (N.of_nat (index mod 64));
  Ok (b + t + c)%N.

(** SuccinctBitVector.hpp:46 rank_0 *)
Definition sb_rank0 (s : sbv) (index : nat) : res N :=
  do r <- sb_rank s index; Ok (wsub (N.of_nat index) r).

(** SuccinctBitVector.hpp:157-164 binary search over large blocks *)
Fixpoint block_search (fuel : nat) (block : list N) (i : N) (lo hi : nat) : res nat :=
  if lo + 1 <? hi then
    match fuel with
    | O => Fuel
    | S fuel =>
        let center := (lo + hi) / 2 in
        do b <- lget block (center * 2);
        if (i <? b)%N then block_search fuel block i lo center
        else block_search fuel block i center hi
    end
  else Ok lo.

(** SuccinctBitVector.hpp:171-175 scan of the tips of one block; returns offset.
    [k] bounds the iterations: offset < 8. *)
Fixpoint tip_scan (k : nat) (block : list N) (size : nat) (i : N) (lo offset : nat) : res nat :=
  match k with
  | O => Ok offset
  | S k =>
      if (offset <? 8) && (lo * 8 + offset <? size / 64 + 1) then
        do t <- second_tip block (lo * 8 + offset);
        if (t <? i)%N then tip_scan k block size i lo (S offset) else Ok offset
      else Ok offset
  end.

(** SuccinctBitVector.hpp:146-182 select (SuccinctBitVector<true>). The word-level select is a
    parameter: bit_util::sel is [BitUtilModel.sel], or [sel_bmi2 ctz64] on BMI2 targets. *)
Definition sb_select (selw : N -> N -> res N) (s : sbv) (index : nat) : res N :=
  do lr <-
    (if negb (length (sb_tips s) =? 0) then
       do l <- lget (sb_tips s) (index / 512);
       do r <- lget (sb_tips s) (index / 512 + 1);
       Ok (N.to_nat l, N.to_nat r + 1)
     else Ok (0, sb_num_blocks s));
  let '(lo, hi) := lr in
  do lo <- block_search (length (sb_block s)) (sb_block s) (N.of_nat index) lo hi;
  do b <- lget (sb_block s) (lo * 2);
  let i := wsub (N.of_nat index + 1) b in
  do offset <- tip_scan 7 (sb_block s) (sb_size s) i lo 1;
  let offset := offset - 1 in
  do t <- second_tip (sb_block s) (lo * 8 + offset);
  let i := wsub i t in
  let ret := lo * 512 + offset * 64 in
  do w <- lget (bv_words (sb_bits s)) (ret / 64);
  do p <- selw w i;
  Ok (wsub (N.of_nat ret + p) 1).
