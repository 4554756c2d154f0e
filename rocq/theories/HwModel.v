(** The branches of bit_util.hpp and bit_util256.hpp for targets with POPCNT, BMI, LZCNT and AVX2.
    The instructions are modelled by their published definitions; the AVX-512 branch (bit_util256.hpp:150-159) uses
    intrinsics that do not exist (_mm256_set_epi64, _mm256_permutexvar_epi128) and does not compile. *)
From Coq Require Import List NArith Bool.
From Verif Require Import Base BitUtilModel.
Import ListNotations.
Open Scope N_scope.

(** ** instructions *)
(** POPCNT: the number of ones of a [w]-bit register *)
Fixpoint hw_popcnt (w : nat) (x : N) : N := match w with O => 0 | S w => x mod 2 + hw_popcnt w (x / 2) end.
(** TZCNT: [w] for zero *)
Fixpoint hw_tzcnt (w : nat) (x : N) : N := match w with O => 0 | S w => if N.odd x then 0 else 1 + hw_tzcnt w (N.div2 x) end.
(** LZCNT: [w] for zero *)
Fixpoint hw_lzcnt (w : nat) (x : N) : N := match w with O => 0 | S w => if N.testbit x (N.of_nat w) then 0 else 1 + hw_lzcnt w x end.
(** BEXTR: start and length are bytes; bits from 64 on are zero *)
Definition hw_bextr (x start len : N) : N := N.shiftr x (start mod 256) mod 2 ^ (N.min (len mod 256) 64).

(** ** bit_util.hpp *)
(** bit_util.hpp:76-78 popcnt32, __POPCNT__ *)
Definition popcnt32_hw (x : N) : N := hw_popcnt 32 (x mod 2 ^ 32).
(** bit_util.hpp:86-88 popcnt64, __POPCNT__ *)
Definition popcnt64_hw (x : N) : N := hw_popcnt 64 x.
(** bit_util.hpp:97-109 popcnt<Word>: dispatch on the size of the type in bytes *)
Definition popcnt_word (bytes : nat) (x : N) : N :=
  match bytes with 1%nat => popcnt8 x | 2%nat => popcnt16 x | 4%nat => popcnt32 x | 8%nat => popcnt64 x | _ => 0 end.
Definition popcnt_word_hw (bytes : nat) (x : N) : N :=
  match bytes with 1%nat => popcnt8 x | 2%nat => popcnt16 x | 4%nat => popcnt32_hw x | 8%nat => popcnt64_hw x | _ => 0 end.
(** bit_util.hpp:116-119 and 127-130 popcnt11, popcnt10, __POPCNT__ *)
Definition popcnt11_hw (x : N) : N := hw_popcnt 64 (N.land (N.land x (N.shiftr x 1)) 0x5555555555555555).
Definition popcnt10_hw (x : N) : N := hw_popcnt 64 (N.land (N.land (wnot x) (N.shiftr x 1)) 0x5555555555555555).
(** bit_util.hpp:138-141, 148-151, 158-161, 168-171 popcnt111, 110, 101, 100, __POPCNT__ *)
Definition popcnt111_hw (x : N) : N := hw_popcnt 64 (N.land (N.land (N.land x (N.shiftr x 1)) (N.shiftr x 2)) m3).
Definition popcnt110_hw (x : N) : N := hw_popcnt 64 (N.land (N.land (N.land (wnot x) (N.shiftr x 1)) (N.shiftr x 2)) m3).
Definition popcnt101_hw (x : N) : N := hw_popcnt 64 (N.land (N.land (N.land x (N.shiftr (wnot x) 1)) (N.shiftr x 2)) m3).
Definition popcnt100_hw (x : N) : N := hw_popcnt 64 (N.land (N.land (N.land (wnot x) (N.shiftr (wnot x) 1)) (N.shiftr x 2)) m3).
(** bit_util.hpp:182-184 bextr, __BMI__; the arguments become unsigned int *)
Definition bextr_hw (x start len : N) : N := hw_bextr x (start mod 2 ^ 32) (len mod 2 ^ 32).
(** bit_util.hpp:193-195 and 226-228 ctz, __BMI__ *)
Definition ctz32_bmi (x : N) : N := hw_tzcnt 32 x.
Definition ctz64_bmi (x : N) : N := hw_tzcnt 64 x.
(** bit_util.hpp:196-197 and 229-230 ctz, __POPCNT__; [w] is 32 or 64 *)
Definition ctz_popcnt (w : nat) (x : N) : N :=
  let W := 2 ^ N.of_nat w in
  hw_popcnt w ((N.land x ((W - x) mod W) + W - 1) mod W).
(** bit_util.hpp:264-265 and 301-302 clz, __LZCNT__ *)
Definition clz32_lzcnt (x : N) : N := hw_lzcnt 32 x.
Definition clz64_lzcnt (x : N) : N := hw_lzcnt 64 x.
(** bit_util.hpp:266-272 clz(uint32_t), __POPCNT__ *)
Definition smear (k x : N) : N := N.lor x (N.shiftr x k).
Definition clz32_popcnt (x : N) : N := hw_popcnt 32 (N.lxor (smear 16 (smear 8 (smear 4 (smear 2 (smear 1 x))))) (2 ^ 32 - 1)).
(** bit_util.hpp:303-310 clz(uint64_t), __POPCNT__ *)
Definition clz64_popcnt (x : N) : N := hw_popcnt 64 (wnot (smear 32 (smear 16 (smear 8 (smear 4 (smear 2 (smear 1 x))))))).
(** bit_util.hpp:511-537 sel, #else branch with the popcnt32 of __POPCNT__ *)
Definition sel_hw (x i : N) : res N :=
  let bc := popcnt32_hw x in
  let '(x, ret, i) := if bc <? i then (N.shiftr x 32, 32, i - bc) else (x, 0, i) in
  let bc := popcnt16 x in
  let '(x, ret, i) := if bc <? i then (N.shiftr x 16, ret + 16, i - bc) else (x, ret, i) in
  let bc := popcnt8 x in
  let '(x, ret, i) := if bc <? i then (N.shiftr x 8, ret + 8, i - bc) else (x, ret, i) in
  do row <- lgetN kLtSel i;
  do v <- lgetN row (N.land x 255);
  Ok (ret + v).
(** bit_util.hpp:558-559 and 567-568 swap_pi8 and swap_pi16, #else branches *)
Definition swap_pi8_plain (x : N) : N := N.lor (N.shiftr (N.land x 0xFF00FF00FF00FF00) 8) (wshl (N.land x 0x00FF00FF00FF00FF) 8).
Definition swap_pi16_plain (x : N) : N := N.lor (N.shiftr (N.land x 0xFFFF0000FFFF0000) 16) (wshl (N.land x 0x0000FFFF0000FFFF) 16).

(** ** bit_util256.hpp: an AVX2 register is a list of four words, lowest first *)
Definition v_or (a b : list N) : list N := map (fun p => N.lor (fst p) (snd p)) (combine a b).
Definition v_and (a b : list N) : list N := map (fun p => N.land (fst p) (snd p)) (combine a b).
Definition v_set1 (m : N) : list N := repeat m 4.
Definition v_slli64 (k : N) (a : list N) : list N := map (fun w => wshl w k) a.
Definition v_srli64 (k : N) (a : list N) : list N := map (fun w => N.shiftr w k) a.
Definition v_slli16 (k : N) (a : list N) : list N := map (slli_pi 4 16 k) a.
Definition v_srli16 (k : N) (a : list N) : list N := map (srli_pi 4 16 k) a.
Definition v_slli32 (k : N) (a : list N) : list N := map (slli_pi 2 32 k) a.
Definition v_srli32 (k : N) (a : list N) : list N := map (srli_pi 2 32 k) a.
(** VPERMD: element i of the result is the element of [a] chosen by the low three bits of element i of [idx] (lowest first) *)
Definition v_dwords (a : list N) : list N := flat_map (fun w => [w mod 2 ^ 32; w / 2 ^ 32]) a.
Fixpoint v_pack (l : list N) : list N := match l with lo :: hi :: l => (lo + 2 ^ 32 * hi) :: v_pack l | _ => [] end.
Definition v_permutevar8x32 (a idx : list N) : list N := v_pack (map (fun i => nth (N.to_nat (i mod 8)) (v_dwords a) 0) idx).
(** VPERMQ *)
Definition v_permute4x64 (a : list N) (imm : N) : list N := map (fun j => nth (N.to_nat (N.shiftr imm (2 * j) mod 4)) a 0) [0; 1; 2; 3].
(** VPERM2I128; bits 3 and 7 of the control, which zero a half, are not set in the only use *)
Definition v_half (a b : list N) (c : N) : list N := if c mod 4 =? 0 then firstn 2 a else if c mod 4 =? 1 then skipn 2 a else if c mod 4 =? 2 then firstn 2 b else skipn 2 b.
Definition v_permute2x128 (a b : list N) (imm : N) : list N := v_half a b imm ++ v_half a b (N.shiftr imm 4).
(** VPCMPEQQ and VPMOVMSKB *)
Definition v_cmpeq64 (a b : list N) : list N := map (fun p => if fst p =? snd p then 2 ^ 64 - 1 else 0) (combine a b).
Fixpoint v_bits (l : list bool) : N := match l with [] => 0 | b :: l => (if b then 1 else 0) + 2 * v_bits l end.
Definition v_movemask8 (a : list N) : N := v_bits (flat_map (fun w => map (fun j => N.testbit w (8 * N.of_nat j + 7)) (seq 0 8)) a).

(** bit_util256.hpp:52-55 is_zero256_intrinsics *)
Definition is_zero256_avx2 (x : list N) : bool := v_movemask8 (v_cmpeq64 x (v_set1 0)) =? 0xFFFFFFFF.
(** bit_util256.hpp:136-172 xor_map_intrinsics without AVX-512; _mm256_set_epi32 lists the highest element first *)
Definition xor_map_avx2 (x : list N) (mask : N) : list N :=
  let on b (f : list N -> list N) (d : list N) := if N.land mask b =? 0 then d else f d in
  let x := on 1 (fun x => v_or (v_slli64 1 (v_and x (v_set1 0x5555555555555555))) (v_srli64 1 (v_and x (v_set1 0xAAAAAAAAAAAAAAAA)))) x in
  let x := on 2 (fun x => v_or (v_slli64 2 (v_and x (v_set1 0x3333333333333333))) (v_srli64 2 (v_and x (v_set1 0xCCCCCCCCCCCCCCCC)))) x in
  let x := on 4 (fun x => v_or (v_slli64 4 (v_and x (v_set1 0x0F0F0F0F0F0F0F0F))) (v_srli64 4 (v_and x (v_set1 0xF0F0F0F0F0F0F0F0)))) x in
  let x := on 8 (fun x => v_or (v_srli16 8 x) (v_slli16 8 x)) x in
  let x := on 16 (fun x => v_or (v_srli32 16 x) (v_slli32 16 x)) x in
  let x := on 32 (fun x => v_permutevar8x32 x (rev [6; 7; 4; 5; 2; 3; 0; 1])) x in
  let x := on 64 (fun x => v_permute4x64 x 177) x in
  let x := on 128 (fun x => v_permute2x128 x x 33) x in
  x.

(** bit_util256.hpp:32-39 copy256_epi64 in one array of words, #else branch: word by word *)
Definition copy256 (mem : list N) (src dst : nat) : res (list N) := foldM (fun mem i => do w <- lget mem (src + i)%nat; lset mem (dst + i)%nat w) (seq 0 4) mem.
(** bit_util256.hpp:33-34 copy256_epi64, __AVX2__: one load and one store, both of addresses that must be multiples of 32 bytes; the array starts at such an address *)
Definition copy256_avx2 (mem : list N) (src dst : nat) : res (list N) :=
  if negb (Nat.eqb (Nat.modulo src 4) 0 && Nat.eqb (Nat.modulo dst 4) 0) then UB else
  do r <- mapM (fun i => lget mem (src + i)%nat) (seq 0 4);
  foldM (fun mem i => lset mem (dst + i)%nat (nth i r 0)) (seq 0 4) mem.
