(** Model of bit_util.hpp (portable branches, see DESIGN.md).
    Words are [N]; a uint64_t argument is assumed < 2^64, a uint32_t argument < 2^32. *)
From Coq Require Import List NArith Bool.
From Verif Require Import Base.
Import ListNotations.
Open Scope N_scope.

(** bit_util.hpp:33-36 WidthMask (assert disabled by NDEBUG; shift by 64 undefined). *)
Definition WidthMask (w : N) : res N :=
  do s <- shl64 1 w; Ok (wsub s 1).

(** bit_util.hpp:41-44 OffsetMask *)
Definition OffsetMask (o : N) : res N := shl64 1 o.

(** bit_util.hpp:28-31 width_mask<9>, used by SuccinctBitVector *)
Definition width_mask9 : N := 511.

(** bit_util.hpp:49-66 kLtCnt *)
Definition kLtCnt : list N := [
   0; 1; 1; 2; 1; 2; 2; 3; 1; 2; 2; 3; 2; 3; 3; 4; 1; 2; 2; 3; 2; 3; 3; 4; 2; 3; 3; 4; 3; 4; 4; 5;
   1; 2; 2; 3; 2; 3; 3; 4; 2; 3; 3; 4; 3; 4; 4; 5; 2; 3; 3; 4; 3; 4; 4; 5; 3; 4; 4; 5; 4; 5; 5; 6;
   1; 2; 2; 3; 2; 3; 3; 4; 2; 3; 3; 4; 3; 4; 4; 5; 2; 3; 3; 4; 3; 4; 4; 5; 3; 4; 4; 5; 4; 5; 5; 6;
   2; 3; 3; 4; 3; 4; 4; 5; 3; 4; 4; 5; 4; 5; 5; 6; 3; 4; 4; 5; 4; 5; 5; 6; 4; 5; 5; 6; 5; 6; 6; 7;
   1; 2; 2; 3; 2; 3; 3; 4; 2; 3; 3; 4; 3; 4; 4; 5; 2; 3; 3; 4; 3; 4; 4; 5; 3; 4; 4; 5; 4; 5; 5; 6;
   2; 3; 3; 4; 3; 4; 4; 5; 3; 4; 4; 5; 4; 5; 5; 6; 3; 4; 4; 5; 4; 5; 5; 6; 4; 5; 5; 6; 5; 6; 6; 7;
   2; 3; 3; 4; 3; 4; 4; 5; 3; 4; 4; 5; 4; 5; 5; 6; 3; 4; 4; 5; 4; 5; 5; 6; 4; 5; 5; 6; 5; 6; 6; 7;
   3; 4; 4; 5; 4; 5; 5; 6; 4; 5; 5; 6; 5; 6; 6; 7; 4; 5; 5; 6; 5; 6; 6; 7; 5; 6; 6; 7; 6; 7; 7; 8].

(** bit_util.hpp:68-70 popcnt8. A uint8_t index never leaves the 256 entries. *)
Definition popcnt8 (x : N) : N := nth (N.to_nat (x mod 256)) kLtCnt 0.

(** bit_util.hpp:72-74 popcnt16; the uint16_t parameter truncates. *)
Definition popcnt16 (x0 : N) : N :=
  let x := x0 mod 2 ^ 16 in
  popcnt8 (N.land (N.shiftr x 8) 255) + popcnt8 (N.land x 255).

(** bit_util.hpp:76-84 popcnt32, #else branch. The parameter is uint32_t; the first two
    statements compute in 64 bits and are truncated by the assignment; the products
    are 32-bit (int times uint32_t). *)
Definition popcnt32 (x0 : N) : N :=
  let x := x0 mod 2 ^ 32 in
  let x := (x - N.land (N.shiftr x 1) 0x55555555) mod 2 ^ 32 in
  let x := (N.land x 0x33333333 + N.land (N.shiftr x 2) 0x33333333) mod 2 ^ 32 in
  (N.shiftr ((0x10101010 * x) mod 2 ^ 32) 28 + N.shiftr ((0x01010101 * x) mod 2 ^ 32) 28) mod 2 ^ 32.

(** bit_util.hpp:86-95 popcnt64, #else branch.
    The first subtraction cannot borrow
    (the wrapped subtraction [wsub] is used anyway). *)
Definition popcnt64 (x : N) : N :=
  let x := wsub x (N.land (N.shiftr x 1) 0x5555555555555555) in
  let x := wrap64 (N.land x 0x3333333333333333 + N.land (N.shiftr x 2) 0x3333333333333333) in
  let x := N.land (wrap64 (x + N.shiftr x 4)) 0x0F0F0F0F0F0F0F0F in
  N.shiftr (wrap64 (0x0101010101010101 * x)) 56.

(** bit_util.hpp:111-114 cnt<uint64_t> *)
Definition cnt64 (x len : N) : res N :=
  do m <- WidthMask len; Ok (popcnt64 (N.land x m)).

(** bit_util.hpp:121-123, common tail of popcnt11/popcnt10 (and 133-135) *)
Definition sum2 (x : N) : N :=
  let x := wrap64 (N.land x 0x3333333333333333 + N.land (N.shiftr x 2) 0x3333333333333333) in
  let x := N.land (wrap64 (x + N.shiftr x 4)) 0x0F0F0F0F0F0F0F0F in
  N.shiftr (wrap64 (0x0101010101010101 * x)) 56.

(** bit_util.hpp:116-125 popcnt11, #else branch *)
Definition popcnt11 (x : N) : N :=
  sum2 (N.land (N.land x (N.shiftr x 1)) 0x5555555555555555).

(** bit_util.hpp:127-136 popcnt10, #else branch *)
Definition popcnt10 (x : N) : N :=
  sum2 (N.land (N.land (wnot x) (N.shiftr x 1)) 0x5555555555555555).

(** bit_util.hpp:143-144, common tail of popcnt111/110/101/100 *)
Definition sum3 (x : N) : N :=
  let x := N.land (wrap64 (x + N.shiftr x 3)) 0x30C30C30C30C30C3 in
  wrap64 (N.land (N.shiftr (wrap64 (0x0041041041041041 * x)) 54) 0x3F + N.shiftr x 60).

Definition m3 : N := 0x1249249249249249.

(** bit_util.hpp:138-146 popcnt111 *)
Definition popcnt111 (x : N) : N :=
  sum3 (N.land (N.land (N.land x (N.shiftr x 1)) (N.shiftr x 2)) m3).
(** bit_util.hpp:148-156 popcnt110 *)
Definition popcnt110 (x : N) : N :=
  sum3 (N.land (N.land (N.land (wnot x) (N.shiftr x 1)) (N.shiftr x 2)) m3).
(** bit_util.hpp:158-166 popcnt101 *)
Definition popcnt101 (x : N) : N :=
  sum3 (N.land (N.land (N.land x (N.shiftr (wnot x) 1)) (N.shiftr x 2)) m3).
(** bit_util.hpp:168-176 popcnt100 *)
Definition popcnt100 (x : N) : N :=
  sum3 (N.land (N.land (N.land (wnot x) (N.shiftr (wnot x) 1)) (N.shiftr x 2)) m3).

(** bit_util.hpp:182-188 bextr, #else branch; [x >> start] undefined for start >= 64 *)
Definition bextr (x start len : N) : res N :=
  do s <- shr64 x start; do m <- WidthMask len; Ok (N.land s m).

(** One [if (x & m) { x &= m; c |= b; }] of the binary searches below. *)
Definition bs_step (m b : N) (xc : N * N) : N * N :=
  let (x, c) := xc in
  if N.land x m =? 0 then (x, c) else (N.land x m, N.lor c b).

(** bit_util.hpp:193-224 ctz(uint32_t), #else branch *)
Definition ctz32 (x : N) : N :=
  if x =? 0 then 32 else
  N.lxor (snd (bs_step 0x55555555 1 (bs_step 0x33333333 2 (bs_step 0x0F0F0F0F 4
         (bs_step 0x00FF00FF 8 (bs_step 0x0000FFFF 16 (x, 0))))))) 31.

(** bit_util.hpp:226-261 ctz(uint64_t), #else branch *)
Definition ctz64 (x : N) : N :=
  if x =? 0 then 64 else
  N.lxor (snd (bs_step 0x5555555555555555 1 (bs_step 0x3333333333333333 2
         (bs_step 0x0F0F0F0F0F0F0F0F 4 (bs_step 0x00FF00FF00FF00FF 8
         (bs_step 0x0000FFFF0000FFFF 16 (bs_step 0x00000000FFFFFFFF 32 (x, 0)))))))) 63.

(** bit_util.hpp:263-298 clz(uint32_t), #else branch (note the [^ 63]) *)
Definition clz32 (x : N) : N :=
  if x =? 0 then 32 else
  N.lxor (snd (bs_step 0xAAAAAAAA 1 (bs_step 0xCCCCCCCC 2 (bs_step 0xF0F0F0F0 4
         (bs_step 0xFF00FF00 8 (bs_step 0xFFFF0000 16 (x, 0))))))) 63.

(** bit_util.hpp:300-340 clz(uint64_t), #else branch *)
Definition clz64 (x : N) : N :=
  if x =? 0 then 64 else
  N.lxor (snd (bs_step 0xAAAAAAAAAAAAAAAA 1 (bs_step 0xCCCCCCCCCCCCCCCC 2
         (bs_step 0xF0F0F0F0F0F0F0F0 4 (bs_step 0xFF00FF00FF00FF00 8
         (bs_step 0xFFFF0000FFFF0000 16 (bs_step 0xFFFFFFFF00000000 32 (x, 0)))))))) 63.

(** bit_util.hpp:345-508 kLtSel[9][256] *)
Definition kLtSel : list (list N) := [
[
   0; 0; 0; 0; 0; 0; 0; 0; 0; 0; 0; 0; 0; 0; 0; 0; 0; 0; 0; 0; 0; 0; 0; 0; 0; 0; 0; 0; 0; 0; 0; 0;
   0; 0; 0; 0; 0; 0; 0; 0; 0; 0; 0; 0; 0; 0; 0; 0; 0; 0; 0; 0; 0; 0; 0; 0; 0; 0; 0; 0; 0; 0; 0; 0;
   0; 0; 0; 0; 0; 0; 0; 0; 0; 0; 0; 0; 0; 0; 0; 0; 0; 0; 0; 0; 0; 0; 0; 0; 0; 0; 0; 0; 0; 0; 0; 0;
   0; 0; 0; 0; 0; 0; 0; 0; 0; 0; 0; 0; 0; 0; 0; 0; 0; 0; 0; 0; 0; 0; 0; 0; 0; 0; 0; 0; 0; 0; 0; 0;
   0; 0; 0; 0; 0; 0; 0; 0; 0; 0; 0; 0; 0; 0; 0; 0; 0; 0; 0; 0; 0; 0; 0; 0; 0; 0; 0; 0; 0; 0; 0; 0;
   0; 0; 0; 0; 0; 0; 0; 0; 0; 0; 0; 0; 0; 0; 0; 0; 0; 0; 0; 0; 0; 0; 0; 0; 0; 0; 0; 0; 0; 0; 0; 0;
   0; 0; 0; 0; 0; 0; 0; 0; 0; 0; 0; 0; 0; 0; 0; 0; 0; 0; 0; 0; 0; 0; 0; 0; 0; 0; 0; 0; 0; 0; 0; 0;
   0; 0; 0; 0; 0; 0; 0; 0; 0; 0; 0; 0; 0; 0; 0; 0; 0; 0; 0; 0; 0; 0; 0; 0; 0; 0; 0; 0; 0; 0; 0; 0];
[
   8; 1; 2; 1; 3; 1; 2; 1; 4; 1; 2; 1; 3; 1; 2; 1; 5; 1; 2; 1; 3; 1; 2; 1; 4; 1; 2; 1; 3; 1; 2; 1;
   6; 1; 2; 1; 3; 1; 2; 1; 4; 1; 2; 1; 3; 1; 2; 1; 5; 1; 2; 1; 3; 1; 2; 1; 4; 1; 2; 1; 3; 1; 2; 1;
   7; 1; 2; 1; 3; 1; 2; 1; 4; 1; 2; 1; 3; 1; 2; 1; 5; 1; 2; 1; 3; 1; 2; 1; 4; 1; 2; 1; 3; 1; 2; 1;
   6; 1; 2; 1; 3; 1; 2; 1; 4; 1; 2; 1; 3; 1; 2; 1; 5; 1; 2; 1; 3; 1; 2; 1; 4; 1; 2; 1; 3; 1; 2; 1;
   8; 1; 2; 1; 3; 1; 2; 1; 4; 1; 2; 1; 3; 1; 2; 1; 5; 1; 2; 1; 3; 1; 2; 1; 4; 1; 2; 1; 3; 1; 2; 1;
   6; 1; 2; 1; 3; 1; 2; 1; 4; 1; 2; 1; 3; 1; 2; 1; 5; 1; 2; 1; 3; 1; 2; 1; 4; 1; 2; 1; 3; 1; 2; 1;
   7; 1; 2; 1; 3; 1; 2; 1; 4; 1; 2; 1; 3; 1; 2; 1; 5; 1; 2; 1; 3; 1; 2; 1; 4; 1; 2; 1; 3; 1; 2; 1;
   6; 1; 2; 1; 3; 1; 2; 1; 4; 1; 2; 1; 3; 1; 2; 1; 5; 1; 2; 1; 3; 1; 2; 1; 4; 1; 2; 1; 3; 1; 2; 1];
[
   8; 8; 8; 2; 8; 3; 3; 2; 8; 4; 4; 2; 4; 3; 3; 2; 8; 5; 5; 2; 5; 3; 3; 2; 5; 4; 4; 2; 4; 3; 3; 2;
   8; 6; 6; 2; 6; 3; 3; 2; 6; 4; 4; 2; 4; 3; 3; 2; 6; 5; 5; 2; 5; 3; 3; 2; 5; 4; 4; 2; 4; 3; 3; 2;
   8; 7; 7; 2; 7; 3; 3; 2; 7; 4; 4; 2; 4; 3; 3; 2; 7; 5; 5; 2; 5; 3; 3; 2; 5; 4; 4; 2; 4; 3; 3; 2;
   7; 6; 6; 2; 6; 3; 3; 2; 6; 4; 4; 2; 4; 3; 3; 2; 6; 5; 5; 2; 5; 3; 3; 2; 5; 4; 4; 2; 4; 3; 3; 2;
   8; 8; 8; 2; 8; 3; 3; 2; 8; 4; 4; 2; 4; 3; 3; 2; 8; 5; 5; 2; 5; 3; 3; 2; 5; 4; 4; 2; 4; 3; 3; 2;
   8; 6; 6; 2; 6; 3; 3; 2; 6; 4; 4; 2; 4; 3; 3; 2; 6; 5; 5; 2; 5; 3; 3; 2; 5; 4; 4; 2; 4; 3; 3; 2;
   8; 7; 7; 2; 7; 3; 3; 2; 7; 4; 4; 2; 4; 3; 3; 2; 7; 5; 5; 2; 5; 3; 3; 2; 5; 4; 4; 2; 4; 3; 3; 2;
   7; 6; 6; 2; 6; 3; 3; 2; 6; 4; 4; 2; 4; 3; 3; 2; 6; 5; 5; 2; 5; 3; 3; 2; 5; 4; 4; 2; 4; 3; 3; 2];
[
   8; 8; 8; 8; 8; 8; 8; 3; 8; 8; 8; 4; 8; 4; 4; 3; 8; 8; 8; 5; 8; 5; 5; 3; 8; 5; 5; 4; 5; 4; 4; 3;
   8; 8; 8; 6; 8; 6; 6; 3; 8; 6; 6; 4; 6; 4; 4; 3; 8; 6; 6; 5; 6; 5; 5; 3; 6; 5; 5; 4; 5; 4; 4; 3;
   8; 8; 8; 7; 8; 7; 7; 3; 8; 7; 7; 4; 7; 4; 4; 3; 8; 7; 7; 5; 7; 5; 5; 3; 7; 5; 5; 4; 5; 4; 4; 3;
   8; 7; 7; 6; 7; 6; 6; 3; 7; 6; 6; 4; 6; 4; 4; 3; 7; 6; 6; 5; 6; 5; 5; 3; 6; 5; 5; 4; 5; 4; 4; 3;
   8; 8; 8; 8; 8; 8; 8; 3; 8; 8; 8; 4; 8; 4; 4; 3; 8; 8; 8; 5; 8; 5; 5; 3; 8; 5; 5; 4; 5; 4; 4; 3;
   8; 8; 8; 6; 8; 6; 6; 3; 8; 6; 6; 4; 6; 4; 4; 3; 8; 6; 6; 5; 6; 5; 5; 3; 6; 5; 5; 4; 5; 4; 4; 3;
   8; 8; 8; 7; 8; 7; 7; 3; 8; 7; 7; 4; 7; 4; 4; 3; 8; 7; 7; 5; 7; 5; 5; 3; 7; 5; 5; 4; 5; 4; 4; 3;
   8; 7; 7; 6; 7; 6; 6; 3; 7; 6; 6; 4; 6; 4; 4; 3; 7; 6; 6; 5; 6; 5; 5; 3; 6; 5; 5; 4; 5; 4; 4; 3];
[
   8; 8; 8; 8; 8; 8; 8; 8; 8; 8; 8; 8; 8; 8; 8; 4; 8; 8; 8; 8; 8; 8; 8; 5; 8; 8; 8; 5; 8; 5; 5; 4;
   8; 8; 8; 8; 8; 8; 8; 6; 8; 8; 8; 6; 8; 6; 6; 4; 8; 8; 8; 6; 8; 6; 6; 5; 8; 6; 6; 5; 6; 5; 5; 4;
   8; 8; 8; 8; 8; 8; 8; 7; 8; 8; 8; 7; 8; 7; 7; 4; 8; 8; 8; 7; 8; 7; 7; 5; 8; 7; 7; 5; 7; 5; 5; 4;
   8; 8; 8; 7; 8; 7; 7; 6; 8; 7; 7; 6; 7; 6; 6; 4; 8; 7; 7; 6; 7; 6; 6; 5; 7; 6; 6; 5; 6; 5; 5; 4;
   8; 8; 8; 8; 8; 8; 8; 8; 8; 8; 8; 8; 8; 8; 8; 4; 8; 8; 8; 8; 8; 8; 8; 5; 8; 8; 8; 5; 8; 5; 5; 4;
   8; 8; 8; 8; 8; 8; 8; 6; 8; 8; 8; 6; 8; 6; 6; 4; 8; 8; 8; 6; 8; 6; 6; 5; 8; 6; 6; 5; 6; 5; 5; 4;
   8; 8; 8; 8; 8; 8; 8; 7; 8; 8; 8; 7; 8; 7; 7; 4; 8; 8; 8; 7; 8; 7; 7; 5; 8; 7; 7; 5; 7; 5; 5; 4;
   8; 8; 8; 7; 8; 7; 7; 6; 8; 7; 7; 6; 7; 6; 6; 4; 8; 7; 7; 6; 7; 6; 6; 5; 7; 6; 6; 5; 6; 5; 5; 4];
[
   8; 8; 8; 8; 8; 8; 8; 8; 8; 8; 8; 8; 8; 8; 8; 8; 8; 8; 8; 8; 8; 8; 8; 8; 8; 8; 8; 8; 8; 8; 8; 5;
   8; 8; 8; 8; 8; 8; 8; 8; 8; 8; 8; 8; 8; 8; 8; 6; 8; 8; 8; 8; 8; 8; 8; 6; 8; 8; 8; 6; 8; 6; 6; 5;
   8; 8; 8; 8; 8; 8; 8; 8; 8; 8; 8; 8; 8; 8; 8; 7; 8; 8; 8; 8; 8; 8; 8; 7; 8; 8; 8; 7; 8; 7; 7; 5;
   8; 8; 8; 8; 8; 8; 8; 7; 8; 8; 8; 7; 8; 7; 7; 6; 8; 8; 8; 7; 8; 7; 7; 6; 8; 7; 7; 6; 7; 6; 6; 5;
   8; 8; 8; 8; 8; 8; 8; 8; 8; 8; 8; 8; 8; 8; 8; 8; 8; 8; 8; 8; 8; 8; 8; 8; 8; 8; 8; 8; 8; 8; 8; 5;
   8; 8; 8; 8; 8; 8; 8; 8; 8; 8; 8; 8; 8; 8; 8; 6; 8; 8; 8; 8; 8; 8; 8; 6; 8; 8; 8; 6; 8; 6; 6; 5;
   8; 8; 8; 8; 8; 8; 8; 8; 8; 8; 8; 8; 8; 8; 8; 7; 8; 8; 8; 8; 8; 8; 8; 7; 8; 8; 8; 7; 8; 7; 7; 5;
   8; 8; 8; 8; 8; 8; 8; 7; 8; 8; 8; 7; 8; 7; 7; 6; 8; 8; 8; 7; 8; 7; 7; 6; 8; 7; 7; 6; 7; 6; 6; 5];
[
   8; 8; 8; 8; 8; 8; 8; 8; 8; 8; 8; 8; 8; 8; 8; 8; 8; 8; 8; 8; 8; 8; 8; 8; 8; 8; 8; 8; 8; 8; 8; 8;
   8; 8; 8; 8; 8; 8; 8; 8; 8; 8; 8; 8; 8; 8; 8; 8; 8; 8; 8; 8; 8; 8; 8; 8; 8; 8; 8; 8; 8; 8; 8; 6;
   8; 8; 8; 8; 8; 8; 8; 8; 8; 8; 8; 8; 8; 8; 8; 8; 8; 8; 8; 8; 8; 8; 8; 8; 8; 8; 8; 8; 8; 8; 8; 7;
   8; 8; 8; 8; 8; 8; 8; 8; 8; 8; 8; 8; 8; 8; 8; 7; 8; 8; 8; 8; 8; 8; 8; 7; 8; 8; 8; 7; 8; 7; 7; 6;
   8; 8; 8; 8; 8; 8; 8; 8; 8; 8; 8; 8; 8; 8; 8; 8; 8; 8; 8; 8; 8; 8; 8; 8; 8; 8; 8; 8; 8; 8; 8; 8;
   8; 8; 8; 8; 8; 8; 8; 8; 8; 8; 8; 8; 8; 8; 8; 8; 8; 8; 8; 8; 8; 8; 8; 8; 8; 8; 8; 8; 8; 8; 8; 6;
   8; 8; 8; 8; 8; 8; 8; 8; 8; 8; 8; 8; 8; 8; 8; 8; 8; 8; 8; 8; 8; 8; 8; 8; 8; 8; 8; 8; 8; 8; 8; 7;
   8; 8; 8; 8; 8; 8; 8; 8; 8; 8; 8; 8; 8; 8; 8; 7; 8; 8; 8; 8; 8; 8; 8; 7; 8; 8; 8; 7; 8; 7; 7; 6];
[
   8; 8; 8; 8; 8; 8; 8; 8; 8; 8; 8; 8; 8; 8; 8; 8; 8; 8; 8; 8; 8; 8; 8; 8; 8; 8; 8; 8; 8; 8; 8; 8;
   8; 8; 8; 8; 8; 8; 8; 8; 8; 8; 8; 8; 8; 8; 8; 8; 8; 8; 8; 8; 8; 8; 8; 8; 8; 8; 8; 8; 8; 8; 8; 8;
   8; 8; 8; 8; 8; 8; 8; 8; 8; 8; 8; 8; 8; 8; 8; 8; 8; 8; 8; 8; 8; 8; 8; 8; 8; 8; 8; 8; 8; 8; 8; 8;
   8; 8; 8; 8; 8; 8; 8; 8; 8; 8; 8; 8; 8; 8; 8; 8; 8; 8; 8; 8; 8; 8; 8; 8; 8; 8; 8; 8; 8; 8; 8; 7;
   8; 8; 8; 8; 8; 8; 8; 8; 8; 8; 8; 8; 8; 8; 8; 8; 8; 8; 8; 8; 8; 8; 8; 8; 8; 8; 8; 8; 8; 8; 8; 8;
   8; 8; 8; 8; 8; 8; 8; 8; 8; 8; 8; 8; 8; 8; 8; 8; 8; 8; 8; 8; 8; 8; 8; 8; 8; 8; 8; 8; 8; 8; 8; 8;
   8; 8; 8; 8; 8; 8; 8; 8; 8; 8; 8; 8; 8; 8; 8; 8; 8; 8; 8; 8; 8; 8; 8; 8; 8; 8; 8; 8; 8; 8; 8; 8;
   8; 8; 8; 8; 8; 8; 8; 8; 8; 8; 8; 8; 8; 8; 8; 8; 8; 8; 8; 8; 8; 8; 8; 8; 8; 8; 8; 8; 8; 8; 8; 7];
[
   8; 8; 8; 8; 8; 8; 8; 8; 8; 8; 8; 8; 8; 8; 8; 8; 8; 8; 8; 8; 8; 8; 8; 8; 8; 8; 8; 8; 8; 8; 8; 8;
   8; 8; 8; 8; 8; 8; 8; 8; 8; 8; 8; 8; 8; 8; 8; 8; 8; 8; 8; 8; 8; 8; 8; 8; 8; 8; 8; 8; 8; 8; 8; 8;
   8; 8; 8; 8; 8; 8; 8; 8; 8; 8; 8; 8; 8; 8; 8; 8; 8; 8; 8; 8; 8; 8; 8; 8; 8; 8; 8; 8; 8; 8; 8; 8;
   8; 8; 8; 8; 8; 8; 8; 8; 8; 8; 8; 8; 8; 8; 8; 8; 8; 8; 8; 8; 8; 8; 8; 8; 8; 8; 8; 8; 8; 8; 8; 8;
   8; 8; 8; 8; 8; 8; 8; 8; 8; 8; 8; 8; 8; 8; 8; 8; 8; 8; 8; 8; 8; 8; 8; 8; 8; 8; 8; 8; 8; 8; 8; 8;
   8; 8; 8; 8; 8; 8; 8; 8; 8; 8; 8; 8; 8; 8; 8; 8; 8; 8; 8; 8; 8; 8; 8; 8; 8; 8; 8; 8; 8; 8; 8; 8;
   8; 8; 8; 8; 8; 8; 8; 8; 8; 8; 8; 8; 8; 8; 8; 8; 8; 8; 8; 8; 8; 8; 8; 8; 8; 8; 8; 8; 8; 8; 8; 8;
   8; 8; 8; 8; 8; 8; 8; 8; 8; 8; 8; 8; 8; 8; 8; 8; 8; 8; 8; 8; 8; 8; 8; 8; 8; 8; 8; 8; 8; 8; 8; 8]].

(** bit_util.hpp:511-537 sel, #else branch. [i] is a size_t; an index [i >= 9] into kLtSel
    is out of bounds. The subtractions [i -= bit_cnt] happen only when bit_cnt < i. *)
Definition sel (x i : N) : res N :=
  let bc := popcnt32 x in
  let '(x, ret, i) := if bc <? i then (N.shiftr x 32, 32, i - bc) else (x, 0, i) in
  let bc := popcnt16 x in
  let '(x, ret, i) := if bc <? i then (N.shiftr x 16, ret + 16, i - bc) else (x, ret, i) in
  let bc := popcnt8 x in
  let '(x, ret, i) := if bc <? i then (N.shiftr x 8, ret + 8, i - bc) else (x, ret, i) in
  do row <- lgetN kLtSel i;
  do v <- lgetN row (N.land x 255);
  Ok (ret + v).

(** Parallel bit deposit (_pdep_u64): the low bits of [src] are scattered to the one
    positions of [mask], lowest first. Used only for the BMI2 branch. *)
Fixpoint pdep_from (n : nat) (pos : N) (src mask : N) : N :=
  match n with
  | O => 0
  | S n => if N.testbit mask pos
           then (if N.odd src then N.shiftl 1 pos else 0) + pdep_from n (pos + 1) (N.div2 src) mask
           else pdep_from n (pos + 1) src mask
  end.
Definition pdep (src mask : N) : N := pdep_from 64 0 src mask.

(** bit_util.hpp:512-513 sel, __BMI2__ branch (with __BMI__ tzcnt). [1ull << (i-1)] undefined
    for i = 0 or i > 64. *)
Definition sel_bmi2 (tz : N -> N) (x i : N) : res N :=
  do s <- shl64 1 (wsub i 1); Ok (tz (pdep s x) + 1).

(** bit_util.hpp:542-552 swap_pi1, swap_pi2, swap_pi4 *)
Definition swap_pi1 (x : N) : N :=
  N.lor (N.shiftr (N.land x 0xAAAAAAAAAAAAAAAA) 1) (wshl (N.land x 0x5555555555555555) 1).
Definition swap_pi2 (x : N) : N :=
  N.lor (N.shiftr (N.land x 0xCCCCCCCCCCCCCCCC) 2) (wshl (N.land x 0x3333333333333333) 2).
Definition swap_pi4 (x : N) : N :=
  N.lor (N.shiftr (N.land x 0xF0F0F0F0F0F0F0F0) 4) (wshl (N.land x 0x0F0F0F0F0F0F0F0F) 4).

(** Lane-wise shifts of a 64-bit MMX register: lanes of [lw] bits (_mm_slli_pi16/32, _mm_srli_pi16/32). *)
Fixpoint lanes_map (n : nat) (lw : N) (f : N -> N) (x : N) : N :=
  match n with
  | O => 0
  | S n => f (x mod 2 ^ lw) + 2 ^ lw * lanes_map n lw f (N.shiftr x lw)
  end.
Definition slli_pi (n : nat) (lw k : N) (x : N) : N :=
  lanes_map n lw (fun a => N.shiftl a k mod 2 ^ lw) x.
Definition srli_pi (n : nat) (lw k : N) (x : N) : N :=
  lanes_map n lw (fun a => N.shiftr a k) x.

(** bit_util.hpp:554-561 swap_pi8, __MMX__ branch *)
Definition swap_pi8 (x : N) : N := N.lor (slli_pi 4 16 8 x) (srli_pi 4 16 8 x).
(** bit_util.hpp:563-570 swap_pi16, __MMX__ branch *)
Definition swap_pi16 (x : N) : N := N.lor (slli_pi 2 32 16 x) (srli_pi 2 32 16 x).
(** bit_util.hpp:572-574 swap_pi32 *)
Definition swap_pi32 (x : N) : N := N.lor (N.shiftr x 32) (wshl x 32).

(** ** bit_util256.hpp: a 256-bit word is a list of four words *)

(** bit_util256.hpp:18-27 set256_epi1 *)
Definition set256_epi1 (b : bool) : list N :=
  let m := if b then 2 ^ 64 - 1 else 0 in [m; m; m; m].

(** bit_util256.hpp:43-49 is_zero256 *)
Definition is_zero256 (x : list N) : bool := forallb (fun w => w =? 0) x.

(** bit_util256.hpp:61-66 popcnt256 *)
Definition popcnt256 (x : list N) : N := fold_left (fun c w => c + popcnt64 w) x 0.

(** bit_util256.hpp:71-75 ctz256 *)
Definition ctz256 (x : list N) : N :=
  match x with
  | [a; b; c; d] =>
      if negb (a =? 0) then 64 * 0 + ctz64 a
      else if negb (b =? 0) then 64 * 1 + ctz64 b
      else if negb (c =? 0) then 64 * 2 + ctz64 c
      else if negb (d =? 0) then 64 * 3 + ctz64 d else 256
  | _ => 256
  end.

(** bit_util256.hpp:77-81 clz256 (as written: 64 * i) *)
Definition clz256 (x : list N) : N :=
  match x with
  | [a; b; c; d] =>
      if negb (d =? 0) then 64 * 3 + clz64 d
      else if negb (c =? 0) then 64 * 2 + clz64 c
      else if negb (b =? 0) then 64 * 1 + clz64 b
      else if negb (a =? 0) then 64 * 0 + clz64 a else 256
  | _ => 256
  end.

(** bit_util256.hpp:86-133 xor_map *)
Definition xswap (lo hi k : N) (x : N) : N :=
  N.lor (wshl (N.land x lo) k) (N.shiftr (N.land x hi) k).
Definition xor_map (x : list N) (mask : N) : list N :=
  let on b (f : list N -> list N) (d : list N) := if N.land mask b =? 0 then d else f d in
  let d := x in
  let d := on 1 (map (xswap 0x5555555555555555 0xAAAAAAAAAAAAAAAA 1)) d in
  let d := on 2 (map (xswap 0x3333333333333333 0xCCCCCCCCCCCCCCCC 2)) d in
  let d := on 4 (map (xswap 0x0F0F0F0F0F0F0F0F 0xF0F0F0F0F0F0F0F0 4)) d in
  let d := on 8 (map (xswap 0x00FF00FF00FF00FF 0xFF00FF00FF00FF00 8)) d in
  let d := on 16 (map (xswap 0x0000FFFF0000FFFF 0xFFFF0000FFFF0000 16)) d in
  let d := on 32 (map (fun w => N.lor (wshl w 32) (N.shiftr w 32))) d in
  let d := on 64 (fun d => match d with [a; b; c; e] => [b; a; e; c] | _ => d end) d in
  let d := on 128 (fun d => match d with [a; b; c; e] => [c; e; a; b] | _ => d end) d in
  d.
