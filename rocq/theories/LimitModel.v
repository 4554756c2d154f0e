(** Models of the functions that count in an int, or compute in double, with those types: the constructor of WaveletTree,
    MultiBitVector::build, calc::cummulative_frequency_list and the DacVector constructor with given widths.
    The other models take these counters to be unbounded. An int has 32 bits; overflowing it is [UB], converting a
    larger value to it keeps the low 32 bits. *)
From Coq Require Import List NArith ZArith Arith Bool.
From Verif Require Import Base Spec BitUtilModel CalcModel BitVectorModel SuccinctModel FitVectorModel WaveletModel DacModel MultiBitModel SignedModel.
Import ListNotations.
Local Open Scope nat_scope.

(** [++i] of an int *)
Definition int_inc (i : Z) : res Z := if (i =? 2 ^ 31 - 1)%Z then UB else Ok (i + 1)%Z.
(** conversion of a size_t to int *)
Definition to_int (x : N) : Z := let r := (Z.of_N x mod 2 ^ 32)%Z in if (r <? 2 ^ 31)%Z then r else (r - 2 ^ 32)%Z.

(** WaveletTree.hpp:40-48 with [auto i = 0]; the state is (bv_list_src_, i) *)
Definition wt_element (height : nat) (st : list bitvec * Z) (v : N) : res (list bitvec * Z) :=
  do nodes <- wt_insert height (fst st) 1 v; do i <- int_inc (snd st); Ok (nodes, i).
(** WaveletTree.hpp:31-53 *)
Definition wt_make_int (l : list N) : res wavelet :=
  match l with
  | [] => UB
  | _ =>
      let max_char := max_element l in
      do height <- SizeFitsInBits max_char;
      if 32 <=? height then UB else
      do src <- foldM (wt_element height) l (repeat bv_default (2 ^ height - 1), 0%Z);
      do nodes <- mapM (sb_build false) (fst src);
      Ok (WT height (wrap64 (max_char + 1)) nodes)
  end.
(** the same for a signed element type *)
Definition wt_element_signed (height : nat) (st : list bitvec * Z) (v : Z) : res (list bitvec * Z) :=
  do nodes <- wt_insert_signed height (fst st) 1 v; do i <- int_inc (snd st); Ok (nodes, i).
Definition wt_make_signed_int (l : list Z) : res wavelet :=
  match l with
  | [] => UB
  | x :: l' =>
      let max_char := to_word (max_element_signed x l') in
      do height <- SizeFitsInBits max_char;
      if 32 <=? height then UB else
      do src <- foldM (wt_element_signed height) l (repeat bv_default (2 ^ height - 1), 0%Z);
      do nodes <- mapM (sb_build false) (fst src);
      Ok (WT height (wrap64 (max_char + 1)) nodes)
  end.

(** calc.hpp:67-72: [count += map[i - 1]] adds in size_t and converts back; cf[i - 1] = count converts to size_t *)
Definition cfl_step_int (map : list nat) (st : list N * Z) (i : nat) : res (list N * Z) :=
  let '(cf, count) := st in
  do c <- lget map (i - 1);
  let count := to_int (wrap64 (to_word count + N.of_nat c)) in
  do cf <- lset cf (i - 1) (to_word count);
  Ok (cf, count).
(** calc.hpp:62-83 *)
Definition cummulative_frequency_list_int (l : list N) : res (list N) :=
  do map <- bit_length_frequencies l;
  rmap fst (foldM (cfl_step_int map) (rev (seq 1 (length map))) (repeat 0%N (length map), 0%Z)).

(** std::vector<id_type>::reserve: a request for 2^57 words (2^60 bytes) or more throws; smaller ones are taken to succeed *)
Definition reserve_words (n : N) : res unit := if (2 ^ 57 <=? n)%N then Throw else Ok tt.
(** FitVector.hpp:145-147 *)
Definition fv_reserve (width : nat) (size : N) : res unit :=
  reserve_words (if size =? 0 then 0 else wsub (wrap64 (size * N.of_nat width)) 1 / 64 + 1)%N.
(** BitVector.hpp:60-63, 134-136 *)
Definition bv_reserve (size : N) : res unit := reserve_words (if size =? 0 then 1 else (size - 1) / 64 + 1)%N.
(** DacVector.hpp:271-275; [i < num_layers - 1] is false for the last width *)
Fixpoint dac_reserve_int (cf : list N) (units : list nat) (t : nat) : res unit :=
  match units with
  | [] => Ok tt
  | u :: us =>
      do c <- lget cf t;
      do _ <- fv_reserve u c;
      do _ <- (match us with [] => Ok tt | _ => bv_reserve c end);
      dac_reserve_int cf us (t + u)
  end.
(** DacVector.hpp:261-295 *)
Definition dac_build_int (units : list nat) (l : list N) : res dac :=
  match units with
  | [] => Throw
  | _ :: us =>
      do cf <- cummulative_frequency_list_int l;
      do _ <- dac_reserve_int cf units 0;
      do st <- foldM (dac_push units) l (map fv_make units, repeat bv_default (length us));
      do paths <- mapM (sb_build false) (snd st);
      Ok (Dac (Some (length units)) units (fst st) paths)
  end.
(** DacVector.hpp:249-259 for a list of widths that is not empty *)
Definition dac_of_widths_int (l : list N) (widths : list nat) : res dac :=
  match l with [] => Ok (Dac None [] [] []) | _ => dac_build_int widths l end.

(** double(n) / b for 0 < n < 2^53 and small b, rounded to 53 significant bits, to even in the middle: the significand and
    the exponent s, standing for the significand times 2^-s *)
Definition double_quotient (n b : N) : N * N :=
  let s := (112 - N.log2 (n * 2 ^ 60 / b))%N in
  let x := (n * 2 ^ s)%N in
  let m := ((2 * x + b) / (2 * b))%N in
  ((if ((2 * x + b) mod (2 * b) =? 0)%N && N.odd m then m - 1 else m)%N, s).
(** std::ceil of it *)
Definition double_ceil (n b : N) : N := let '(m, s) := double_quotient n b in ((m + (2 ^ s - 1)) / 2 ^ s)%N.

Section U.
Variable U : nat.
(** MultiBitVector.hpp:218-224; the index of line 220 is an int *)
Definition mb_tip_step_int (type : nat) (ws : list N) (L1 : N) (i : nat) (st : list N * N) (offset : nat) : res (list N * N) :=
  let '(l2, count) := st in
  let l2 := l2 ++ [((count - L1) mod 256)%N] in
  let index := i * kBlocksInTipSize U + offset in
  if (2 ^ 31 <=? N.of_nat index)%N then UB else
  if index <? length ws then do w <- lget ws index; Ok (l2, (count + mb_popcnt U type w)%N) else Ok (l2, count).
(** MultiBitVector.hpp:215-225; [i++] of the int cannot overflow before the index does *)
Definition mb_tip_int (type : nat) (ws : list N) (st : list tip * N) (i : nat) : res (list tip * N) :=
  let '(tips, count) := st in
  do r <- foldM (mb_tip_step_int type ws count i) (seq 0 (kBlocksInTipSize U)) ([], count);
  Ok (tips ++ [Tip count (fst r)], snd r).
(** MultiBitVector.hpp:201-227 *)
Definition mb_build_int (v : multibit) : res multibit :=
  if length (mb_bits v) =? 0 then Ok v else
  do num_types <- mb_num_types U v;
  let tips_size := N.to_nat (double_ceil (N.of_nat (length (mb_bits v))) (N.of_nat (kBlocksInTipSize U))) in
  do all <- foldM (fun all type =>
      do r <- foldM (mb_tip_int type (mb_bits v)) (seq 0 tips_size) ([], 0%N);
      lset all (type - 1) (fst r)) (seq 1 (num_types - 1)) (mb_tips v);
  Ok (MB (mb_bits v) all).
End U.
