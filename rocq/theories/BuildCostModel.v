(** The functions that fill and build the containers with the elements they access counted: reads and writes
    of an element of a vector each count once. Not counted: growing a std::vector (amortised by the library)
    and arithmetic. CostBase.v has the counter, InitCostModel.v the counted loop [foldC]. *)
From Coq Require Import List NArith ZArith Arith Bool.
From Verif Require Import Base Spec CostBase BitUtilModel CalcModel BitVectorModel SuccinctModel FitVectorModel WaveletModel DacModel MultiBitModel InitCostModel SearchCostModel.
Import ListNotations.
Local Open Scope nat_scope.

(** counted [n] times *)
Definition ticks (n : nat) : cres unit := fun k => Ok (k + n, tt).
Fixpoint mapC {A B} (f : A -> cres B) (l : list A) : cres (list B) :=
  match l with [] => cret [] | a :: l => count b <- f a; count bs <- mapC f l; cret (b :: bs) end.

(** BitVector.hpp:93-95, 105-107 *)
Definition fill_inner_c (v : N) (from : Z) (n : nat) (ws : list N) : cres (list N) :=
  foldC (fun ws k => paid (wsetZ ws (from + Z.of_nat k)%Z v)) (seq 0 n) ws.
(** BitVector.hpp:83-114 *)
Definition fill_c (ws : list N) (b e : iter) (bit : bool) : cres (list N) :=
  if iter_leb e b then cret ws else
  let back := iter_minus e 1 in
  let eclz := (64 - (ctz_ back + 1))%N in
  let inner := Z.to_nat (seg back - (seg b + 1)) in
  if bit then
    if (seg b <? seg back)%Z then
      count w <- paid (wgetZ ws (seg b));
      count m <- free (shl64 all_ones (ctz_ b));
      count ws <- paid (wsetZ ws (seg b) (N.lor w m));
      count ws <- fill_inner_c all_ones (seg b + 1) inner ws;
      count w <- paid (wgetZ ws (seg back));
      count m <- free (if (0 <? ctz_ e)%N then do m <- shl64 all_ones (ctz_ e); Ok (wnot m) else Ok all_ones);
      paid (wsetZ ws (seg back) (N.lor w m))
    else
      count w <- paid (wgetZ ws (seg b));
      count m1 <- free (shl64 all_ones (ctz_ b));
      count m2 <- free (shr64 all_ones eclz);
      paid (wsetZ ws (seg b) (N.lor w (N.land m1 m2)))
  else
    if (seg b <? seg back)%Z then
      count w <- paid (wgetZ ws (seg b));
      count m <- free (shl64 all_ones (ctz_ b));
      count ws <- paid (wsetZ ws (seg b) (N.land w (wnot m)));
      count ws <- fill_inner_c 0%N (seg b + 1) inner ws;
      count w <- paid (wgetZ ws (seg back));
      count m <- free (if (0 <? ctz_ e)%N then shl64 all_ones (ctz_ e) else Ok 0%N);
      paid (wsetZ ws (seg back) (N.land w m))
    else
      count w <- paid (wgetZ ws (seg b));
      count m1 <- free (shl64 all_ones (ctz_ b));
      count m2 <- free (shr64 all_ones eclz);
      paid (wsetZ ws (seg b) (N.land w (wnot (N.land m1 m2)))).
(** BitVector.hpp:116-126 *)
Definition bv_resize_c (v : bitvec) (n : nat) (bit : bool) : cres bitvec :=
  if n <? bv_size v then cret (BV n (lresize (bv_words v) (get_word_size n) 0%N))
  else if bv_size v <? n then
    count ws <- fill_c (lresize (bv_words v) (get_word_size n) 0%N) (make_iter (bv_size v)) (make_iter n) bit;
    cret (BV n ws)
  else cret v.
(** BitVector.hpp:206-208 *)
Definition bv_push_back_c (v : bitvec) (bit : bool) : cres bitvec := bv_resize_c v (bv_size v + 1) bit.
(** BitVector.hpp:128-132 *)
Definition bv_assign_c (v : bitvec) (n : nat) (bit : bool) : cres bitvec :=
  count ws <- fill_c (lresize (bv_words v) (get_word_size n) 0%N) (make_iter 0) (make_iter n) bit;
  cret (BV n ws).

(** SuccinctBitVector.hpp:96-104 *)
Definition block_step_c (ws : list N) (st : list N * N * N) (i : nat) : cres (list N * N * N) :=
  let '(block, sum, sum_word) := st in
  count st <-
    (if i mod 8 =? 0 then
       let j := i / 8 * 2 in
       count block <- paid (lset block (j - 1) sum_word);
       count b <- paid (lget block (j - 2));
       count block <- paid (lset block j (b + sum)%N);
       cret (block, 0%N, 0%N)
     else
       count sum_word <- free (put_tip sum_word sum i);
       cret (block, sum, sum_word));
  let '(block, sum, sum_word) := st in
  count w <- paid (lget ws i);
  cret (block, (sum + popcnt64 w)%N, sum_word).
(** SuccinctBitVector.hpp:106-115 *)
Definition block_finish_c (st : list N * N * N) (i : nat) : cres (list N) :=
  let '(block, sum, sum_word) := st in
  let j := i / 8 * 2 in
  if negb (i mod 8 =? 0) then
    count sum_word <- free (put_tip sum_word sum i);
    paid (lset block (j + 1) sum_word)
  else
    count block <- paid (lset block (j - 1) sum_word);
    count b <- paid (lget block (j - 2));
    count block <- paid (lset block j (b + sum)%N);
    paid (lset block (j + 1) 0%N).
(** SuccinctBitVector.hpp:120-125: the pushed sample counts once more *)
Definition tips_step_c (block : list N) (st : list N * N) (j : nat) : cres (list N * N) :=
  let '(tips, threshold) := st in
  count b <- paid (lget block (j * 2));
  if (threshold <=? b)%N then paid (Ok (tips ++ [(N.of_nat (j - 1) mod 2 ^ 32)%N], (threshold + 512)%N))
  else cret (tips, threshold).
(** SuccinctBitVector.hpp:117-127: the first and the last sample are pushed outside the loop *)
Definition build_tips_c (block : list N) (nb : nat) : cres (list N) :=
  count _ <- ticks 2;
  count st <- foldC (tips_step_c block) (seq 1 (nb - 1)) ([0%N], 512%N);
  cret (fst st ++ [(N.of_nat (nb - 1) mod 2 ^ 32)%N]).
(** SuccinctBitVector.hpp:87-115: line 94 sets the first two entries *)
Definition build_block_c (v : bitvec) : cres (list N) :=
  let nb := bv_size v / 512 + 1 in
  let ws := bv_words v in
  count w0 <- paid (lget ws 0);
  count _ <- ticks 2;
  let n := bv_size v / 64 in
  count st <- foldC (block_step_c ws) (seq 1 (n - 1)) (repeat 0%N (nb * 2), popcnt64 w0, 0%N);
  block_finish_c st (Nat.max 1 n).
(** SuccinctBitVector.hpp:80-128: assign(2, 0) for an empty vector *)
Definition sb_build_c (use_select : bool) (v : bitvec) : cres sbv :=
  if bv_size v =? 0 then count _ <- ticks 2; cret (SBV v (repeat 0%N 2) []) else
  count block <- build_block_c v;
  count tips <- (if use_select then build_tips_c block (bv_size v / 512 + 1) else cret []);
  cret (SBV v block tips).

(** BitsReference.hpp:46-53 *)
Definition bits_write_c (ws : list N) (seg off w : nat) (value : N) : cres (list N) :=
  count m <- free (WidthMask (N.of_nat w));
  count x <- paid (lget ws seg);
  count hole <- free (shl64 m (N.of_nat off));
  count v <- free (shl64 value (N.of_nat off));
  count ws <- paid (lset ws seg (N.lor (N.land x (wnot hole)) v));
  if 64 <? w + off then
    let roffset := N.of_nat (64 - off) in
    count y <- paid (lget ws (seg + 1));
    count hole <- free (shr64 m roffset);
    count v <- free (shr64 value roffset);
    paid (lset ws (seg + 1) (N.lor (N.land y (wnot hole)) v))
  else cret ws.
(** FitVector.hpp:87-89 *)
Definition fv_set_c (v : fitvec) (i : nat) (x : N) : cres fitvec :=
  count ws <- bits_write_c (fv_words v) (i * fv_width v / 64) (i * fv_width v mod 64) (fv_width v) x;
  cret (FV (fv_width v) (fv_size v) ws).
(** FitVector.hpp:132-137 *)
Definition fv_resize_value_c (v : fitvec) (n : nat) (x : N) : cres fitvec :=
  foldC (fun v i => fv_set_c v i x) (seq (fv_size v) (n - fv_size v)) (fv_resize v n).
(** FitVector.hpp:139-143 *)
Definition fv_assign_c (v : fitvec) (n : nat) (x : N) : cres fitvec :=
  foldC (fun v i => fv_set_c v i x) (seq 0 n) (fv_resize v n).
(** FitVector.hpp:149-152 *)
Definition fv_push_back_c (v : fitvec) (x : N) : cres fitvec :=
  let v := fv_resize v (fv_size v + 1) in fv_set_c v (fv_size v - 1) x.
(** FitVector.hpp:69-75: max_element reads the list once, the loop reads it again *)
Definition fv_of_list_c (l : list N) : cres fitvec :=
  count _ <- ticks (length l);
  count w <- free (minimal_word_size l);
  foldC (fun v x => count _ <- ticks 1; fv_push_back_c v x) l (fv_make w).

(** WaveletTree.hpp:41-47: finding the node counts once *)
Fixpoint wt_insert_c (k : nat) (nodes : list bitvec) (id : nat) (value : N) : cres (list bitvec) :=
  match k with
  | O => cret nodes
  | S k =>
      let bit := N.testbit value (N.of_nat k) in
      count n <- paid (lget nodes (id - 1));
      count n' <- bv_push_back_c n bit;
      count nodes' <- free (lset nodes (id - 1) n');
      wt_insert_c k nodes' (next_id id bit) value
  end.
(** WaveletTree.hpp:31-53: max_element reads the list once, the loop reads it again; making the empty nodes counts one each *)
Definition wt_make_c (l : list N) : cres wavelet :=
  match l with
  | [] => free UB
  | _ =>
      count _ <- ticks (length l);
      let max_char := max_element l in
      count height <- free (SizeFitsInBits max_char);
      if 32 <=? height then free UB else
      count _ <- ticks (2 ^ height - 1);
      count src <- foldC (fun nodes v => count _ <- ticks 1; wt_insert_c height nodes 1 v) l (repeat bv_default (2 ^ height - 1));
      count nodes <- mapC (sb_build_c false) src;
      cret (WT height (wrap64 (max_char + 1)) nodes)
  end.

(** calc.hpp:44-60 *)
Definition blf_step_c (st : list nat * nat) (v : N) : cres (list nat * nat) :=
  let '(map, max_size) := st in
  count size <- free (SizeFitsInBits v);
  let '(map, max_size) := if max_size <? size then (lresize map size 0, size) else (map, max_size) in
  count c <- paid (lget map (size - 1));
  count map <- paid (lset map (size - 1) (S c));
  cret (map, max_size).
Definition bit_length_frequencies_c (l : list N) : cres (list nat) :=
  count st <- foldC (fun st v => count _ <- ticks 1; blf_step_c st v) l ([], 0); cret (fst st).
(** calc.hpp:67-72 *)
Definition cfl_step_c (map : list nat) (st : list nat * nat) (i : nat) : cres (list nat * nat) :=
  let '(cf, total) := st in
  count c <- paid (lget map (i - 1));
  let total := total + c in
  count cf <- paid (lset cf (i - 1) total);
  cret (cf, total).
(** calc.hpp:62-83 *)
Definition cummulative_frequency_list_c (l : list N) : cres (list nat) :=
  count map <- bit_length_frequencies_c l;
  count st <- foldC (cfl_step_c map) (rev (seq 1 (length map))) (repeat 0 (length map), 0);
  cret (fst st).
(** DacVector.hpp:282-290 *)
Fixpoint dac_push_deep_c (units : list nat) (layers : list fitvec) (paths : list bitvec) (x : N) : cres (list fitvec * list bitvec) :=
  match units with
  | [] => cret (layers, paths)
  | u :: us =>
      match paths with
      | [] => free UB
      | p :: ps =>
          let exist := (0 <? x)%N in
          count p' <- bv_push_back_c p exist;
          if negb exist then cret (layers, p' :: ps) else
          match layers with
          | [] => free UB
          | L :: Ls =>
              count m <- free (WidthMask (N.of_nat u));
              count L' <- fv_push_back_c L (N.land x m);
              count x' <- free (shr64 x (N.of_nat u));
              count r <- dac_push_deep_c us Ls ps x';
              cret (L' :: fst r, p' :: snd r)
          end
      end
  end.
(** DacVector.hpp:278-291 *)
Definition dac_push_c (units : list nat) (st : list fitvec * list bitvec) (x : N) : cres (list fitvec * list bitvec) :=
  let '(layers, paths) := st in
  match units, layers with
  | u0 :: us, L0 :: Ls =>
      count m <- free (WidthMask (N.of_nat u0));
      count L0' <- fv_push_back_c L0 (N.land x m);
      count x' <- free (shr64 x (N.of_nat u0));
      count r <- dac_push_deep_c us Ls paths x';
      cret (L0' :: fst r, snd r)
  | _, _ => free UB
  end.
(** DacVector.hpp:271-275 *)
Fixpoint dac_reserve_c (cf : list nat) (units : list nat) (t : nat) : cres unit :=
  match units with
  | [] => cret tt
  | u :: us =>
      count c <- paid (lget cf t);
      if (u =? 0) && negb (c =? 0) then free Throw else dac_reserve_c cf us (t + u)
  end.
(** DacVector.hpp:261-295 *)
Definition dac_build_c (units : list nat) (l : list N) : cres dac :=
  match units with
  | [] => free Throw
  | _ :: us =>
      count cf <- cummulative_frequency_list_c l;
      count _ <- dac_reserve_c cf units 0;
      count st <- foldC (fun st x => count _ <- ticks 1; dac_push_c units st x) l (map fv_make units, repeat bv_default (length us));
      count paths <- mapC (sb_build_c false) (snd st);
      cret (Dac (Some (length units)) units (fst st) paths)
  end.

(** MultiBitVector.hpp:218-224: L2[offset] is written, a word is read *)
Definition mb_tip_step_c (U type : nat) (ws : list N) (L1 : N) (i : nat) (st : list N * N) (offset : nat) : cres (list N * N) :=
  let '(l2, total) := st in
  count _ <- ticks 1;
  let l2 := l2 ++ [((total - L1) mod 256)%N] in
  let index := i * kBlocksInTipSize U + offset in
  if index <? length ws then count w <- paid (lget ws index); cret (l2, (total + mb_popcnt U type w)%N) else cret (l2, total).
(** MultiBitVector.hpp:216-224: L1 is written *)
Definition mb_tip_c (U type : nat) (ws : list N) (st : list tip * N) (i : nat) : cres (list tip * N) :=
  let '(tips, total) := st in
  count _ <- ticks 1;
  count r <- foldC (mb_tip_step_c U type ws total i) (seq 0 (kBlocksInTipSize U)) ([], total);
  cret (tips ++ [Tip total (fst r)], snd r).
(** MultiBitVector.hpp:204-206 *)
Definition mb_num_types_c (U : nat) (v : multibit) : cres nat :=
  foldC (fun n i => count x <- mb_get_c U v i; cret (Nat.max n (N.to_nat x + 1))) (seq 0 (length (mb_bits v) * kBitsInType U / U)) 0.
(** MultiBitVector.hpp:201-227 *)
Definition mb_build_c (U : nat) (v : multibit) : cres multibit :=
  if length (mb_bits v) =? 0 then cret v else
  count num_types <- mb_num_types_c U v;
  let tips_size := (length (mb_bits v) + kBlocksInTipSize U - 1) / kBlocksInTipSize U in
  count all <- foldC (fun all type =>
      count r <- foldC (mb_tip_c U type (mb_bits v)) (seq 0 tips_size) ([], 0%N);
      free (lset all (type - 1) (fst r))) (seq 1 (num_types - 1)) (mb_tips v);
  cret (MB (mb_bits v) all).
