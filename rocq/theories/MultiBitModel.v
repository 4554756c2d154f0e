(** Model of MultiBitVector.hpp for UnitSize = 1, 2, 3 (UnitSize 0 does not compile: 0x40 % 0).
    The number of tips, ceil of a double quotient at line 208, is taken to be exact. *)
From Coq Require Import List NArith ZArith Arith Bool.
From Verif Require Import MultiBitSpec Base Spec Spec2 BitUtilModel.
Import ListNotations.
Local Open Scope nat_scope.

(** MultiBitVector.hpp:33-36 *)
Record tip := Tip { tip_L1 : N; tip_L2 : list N }.
(** MultiBitVector.hpp:32, 37 *)
Record multibit := MB { mb_bits : list N; mb_tips : list (list tip) }.

Section U.
Variable U : nat.

(** MultiBitVector.hpp:23-29 *)
Definition kMaxNumTypes : nat := 2 ^ U.
Definition kBitsMask : N := (2 ^ N.of_nat U - 1)%N.
Definition kBitsInType : nat := 64 - 64 mod U.
Definition kBlockCapacity : nat := kBitsInType * 4.
Definition kBlocksInTipSize : nat := 256 * U / 64.

(** MultiBitVector.hpp:39-49 *)
Definition mb_block (index : nat) : nat := index / kBlockCapacity.
Definition mb_abs (index : nat) : nat := index / (kBitsInType / U).
Definition mb_rel (index : nat) : nat := index * U mod kBitsInType.

(** MultiBitVector.hpp:51-90 *)
Definition mb_popcnt (bits : nat) (word : N) : N :=
  match U with
  | 1 => if bits =? 0 then popcnt64 (wnot word) else popcnt64 word
  | 2 => if bits =? 0 then popcnt11 (wnot word)
         else if bits =? 1 then popcnt10 (wnot word)
         else if bits =? 2 then popcnt10 word else popcnt11 word
  | _ =>
      if Nat.testbit bits 2 then
        if Nat.testbit bits 1 then
          if Nat.testbit bits 0 then popcnt111 word else popcnt110 word
        else
          if Nat.testbit bits 0 then popcnt101 word else popcnt100 word
      else
        if Nat.testbit bits 1 then
          if Nat.testbit bits 0 then popcnt100 (wnot word) else popcnt101 (wnot word)
        else
          if Nat.testbit bits 0 then popcnt110 (wnot word) else popcnt111 (wnot word)
  end.

(** MultiBitVector.hpp:134 *)
Definition mb_default : multibit := MB [] (repeat [] kMaxNumTypes).

(** MultiBitVector.hpp:136-138 *)
Definition mb_get (v : multibit) (index : nat) : res N :=
  do w <- lget (mb_bits v) (mb_abs index);
  do x <- shr64 w (N.of_nat (mb_rel index));
  Ok (N.land x kBitsMask).

(** MultiBitVector.hpp:159-161 *)
Definition mb_resize (v : multibit) (index : nat) : multibit := MB (lresize (mb_bits v) (mb_abs index + 1) 0%N) (mb_tips v).
(** MultiBitVector.hpp:154-157 *)
Definition mb_resize_check (v : multibit) (index : nat) : multibit :=
  if mb_abs index <? length (mb_bits v) then v else mb_resize v index.

(** MultiBitVector.hpp:144-150; [value] is a uint8_t *)
Definition mb_set (v : multibit) (index : nat) (value : N) : res multibit :=
  let v := mb_resize_check v index in
  let ri := N.of_nat (mb_rel index) in
  do obj <- lget (mb_bits v) (mb_abs index);
  do m <- shl64 kBitsMask ri;
  do x <- shl64 value ri;
  do bits <- lset (mb_bits v) (mb_abs index) (N.lor (N.land obj (wnot m)) x);
  Ok (MB bits (mb_tips v)).

(** MultiBitVector.hpp:187-198 *)
Definition mb_rank (v : multibit) (index : nat) : res N :=
  do type <- mb_get v index;
  if (type =? 0)%N then UB else (* rank_tips_[-1] *)
  do tips <- lget (mb_tips v) (N.to_nat type - 1);
  do t <- lget tips (mb_block index);
  let abs := mb_abs index in
  let rel := mb_rel index in
  do l2 <- lget (tip_L2 t) (abs mod kBlocksInTipSize);
  if rel =? 0 then Ok (tip_L1 t + l2)%N else
  do w <- lget (mb_bits v) abs;
  do m <- WidthMask (N.of_nat rel);
  Ok (tip_L1 t + l2 + mb_popcnt (N.to_nat type) (N.land w m))%N.

(** MultiBitVector.hpp:218-224, one word; L2[offset] is a uint8_t *)
Definition mb_tip_step (type : nat) (ws : list N) (L1 : N) (i : nat) (st : list N * N) (offset : nat) : res (list N * N) :=
  let '(l2, count) := st in
  let l2 := l2 ++ [((count - L1) mod 256)%N] in
  let index := i * kBlocksInTipSize + offset in
  if index <? length ws then do w <- lget ws index; Ok (l2, (count + mb_popcnt type w)%N) else Ok (l2, count).

(** MultiBitVector.hpp:216-224, one tip; all entries of L2 are written, in order *)
Definition mb_tip (type : nat) (ws : list N) (st : list tip * N) (i : nat) : res (list tip * N) :=
  let '(tips, count) := st in
  do r <- foldM (mb_tip_step type ws count i) (seq 0 kBlocksInTipSize) ([], count);
  Ok (tips ++ [Tip count (fst r)], snd r).

(** MultiBitVector.hpp:204-206 *)
Definition mb_num_types (v : multibit) : res nat :=
  foldM (fun n i => do x <- mb_get v i; Ok (Nat.max n (N.to_nat x + 1))) (seq 0 (length (mb_bits v) * kBitsInType / U)) 0.

(** MultiBitVector.hpp:201-227 *)
Definition mb_build (v : multibit) : res multibit :=
  if length (mb_bits v) =? 0 then Ok v else
  do num_types <- mb_num_types v;
  let tips_size := (length (mb_bits v) + kBlocksInTipSize - 1) / kBlocksInTipSize in
  do all <- foldM (fun all type =>
      do r <- foldM (mb_tip type (mb_bits v)) (seq 0 tips_size) ([], 0%N);
      lset all (type - 1) (fst r)) (seq 1 (num_types - 1)) (mb_tips v);
  Ok (MB (mb_bits v) all).

(** a history (most recent operation last) *)
Definition mb_step (v : multibit) (o : mb_op) : res multibit :=
  match o with MBSet i x => mb_set v i x | MBResize i => Ok (mb_resize v i) end.
Definition mb_run (ops : list mb_op) : res multibit := foldM mb_step ops mb_default.
(** MultiBitVector.hpp:92-131: popcnt_ restricted to the low [width] bits of the word (not called by the other functions) *)
Definition mb_popcnt_width (bits : nat) (word : N) (width : N) : res N :=
  do m <- WidthMask width;
  Ok (match U with
  | 1 => if bits =? 0 then popcnt64 (N.land (wnot word) m) else popcnt64 (N.land word m)
  | 2 => if bits =? 0 then popcnt11 (N.land (wnot word) m)
         else if bits =? 1 then popcnt10 (N.land (wnot word) m)
         else if bits =? 2 then popcnt10 (N.land word m) else popcnt11 (N.land word m)
  | _ =>
      if Nat.testbit bits 2 then
        if Nat.testbit bits 1 then
          if Nat.testbit bits 0 then popcnt111 (N.land word m) else popcnt110 (N.land word m)
        else
          if Nat.testbit bits 0 then popcnt101 (N.land word m) else popcnt100 (N.land word m)
      else
        if Nat.testbit bits 1 then
          if Nat.testbit bits 0 then popcnt100 (N.land (wnot word) m) else popcnt101 (N.land (wnot word) m)
        else
          if Nat.testbit bits 0 then popcnt110 (N.land (wnot word) m) else popcnt111 (N.land (wnot word) m)
  end).

(** histories in which build() may be called anywhere (MultiBitVector.hpp:183-227) *)
Definition mb_step_b (v : multibit) (o : mb_op_b) : res multibit :=
  match o with MBDo o => mb_step v o | MBBuild => mb_build v end.
Definition mb_run_b (ops : list mb_op_b) : res multibit := foldM mb_step_b ops mb_default.
End U.
