(** Properties C74 and C75 (the branches of bit_util.hpp and bit_util256.hpp for POPCNT, BMI, BMI2, LZCNT and AVX2). *)
From Coq Require Import List NArith Lia Bool.
From Verif Require Import Base Spec BitUtilModel HwModel HwProof AvxProof.
Import ListNotations.
Open Scope N_scope.

(** C74 *)
Theorem C74_popcnt_word : forall b x, In b [1; 2; 4; 8]%nat -> popcnt_word_hw b x = N.of_nat (ones_below (8 * b) x).
Proof. exact popcnt_word_hw_spec. Qed.
Print Assumptions C74_popcnt_word.
Example C74_popcnt_word_ex : popcnt_word_hw 4 0x0F0F0F0F = 16 /\ popcnt_word 4 0x0F0F0F0F <> 16 /\ popcnt_word_hw 8 0xF0F0F0F0F0F0F0F1 = 33 /\
  popcnt_word_hw 2 0xFF00 = 8 /\ popcnt_word_hw 1 0x7F = 7.
Proof. repeat split; vm_compute; congruence. Qed.

Theorem C74_fields : forall x, x < 2 ^ 64 ->
  popcnt11_hw x = N.of_nat (fields_equal 2 32 3 x) /\ popcnt10_hw x = N.of_nat (fields_equal 2 32 2 x) /\
  popcnt111_hw x = N.of_nat (fields_equal 3 21 7 x) /\ popcnt110_hw x = N.of_nat (fields_equal 3 21 6 x) /\
  popcnt101_hw x = N.of_nat (fields_equal 3 21 5 x) /\ popcnt100_hw x = N.of_nat (fields_equal 3 21 4 x).
Proof.
  exact (fun x H => conj (popcnt11_hw_spec x H) (conj (popcnt10_hw_spec x H) (conj (popcnt111_hw_spec x H) (conj (popcnt110_hw_spec x H)
    (conj (popcnt101_hw_spec x H) (popcnt100_hw_spec x H)))))).
Qed.
Print Assumptions C74_fields.
Example C74_fields_ex : let x := 0x5B6DA7FF0A5A1237 in x < 2 ^ 64 /\
  (popcnt11_hw x, popcnt10_hw x, popcnt111_hw x, popcnt110_hw x, popcnt101_hw x, popcnt100_hw x) = (9, 9, 4, 2, 6, 2).
Proof. split; vm_compute; reflexivity. Qed.

(** Unlike the portable branch (C06) a length of 64 is allowed. *)
Theorem C74_bextr : forall x s len, x < 2 ^ 64 -> s <= 64 -> len <= 64 -> bextr_hw x s len = (x / 2 ^ s) mod 2 ^ len.
Proof. exact bextr_hw_val. Qed.
Print Assumptions C74_bextr.
Example C74_bextr_ex : bextr_hw 0xABCD 4 8 = 0xBC /\ bextr_hw 0xF000000000000001 0 64 = 0xF000000000000001 /\ bextr_hw 0xABCD 64 8 = 0.
Proof. repeat split; vm_compute; reflexivity. Qed.

Theorem C74_ctz_bmi : forall x, (x < 2 ^ 64 -> (x = 0 -> ctz64_bmi x = 64) /\ (x <> 0 -> lowest_one x (ctz64_bmi x))) /\
  (x < 2 ^ 32 -> (x = 0 -> ctz32_bmi x = 32) /\ (x <> 0 -> lowest_one x (ctz32_bmi x))).
Proof. exact (fun x => conj (hw_tzcnt_spec 64 x) (hw_tzcnt_spec 32 x)). Qed.
Print Assumptions C74_ctz_bmi.
Theorem C74_ctz_popcnt : forall x, (x < 2 ^ 64 -> (x = 0 -> ctz_popcnt 64 x = 64) /\ (x <> 0 -> lowest_one x (ctz_popcnt 64 x))) /\
  (x < 2 ^ 32 -> (x = 0 -> ctz_popcnt 32 x = 32) /\ (x <> 0 -> lowest_one x (ctz_popcnt 32 x))).
Proof. exact (fun x => conj (ctz_popcnt_spec 64 x) (ctz_popcnt_spec 32 x)). Qed.
Print Assumptions C74_ctz_popcnt.
Example C74_ctz_ex : ctz64_bmi 0xA000000000000000 = 61 /\ ctz_popcnt 64 0xA000000000000000 = 61 /\ ctz32_bmi 0 = 32 /\ ctz_popcnt 32 0xA0 = 5.
Proof. repeat split; vm_compute; reflexivity. Qed.

(** In particular clz(uint32_t) is right here, unlike in the portable branch (C03). *)
Theorem C74_clz_lzcnt : forall x,
  (x < 2 ^ 64 -> (x = 0 -> clz64_lzcnt x = 64) /\ (x <> 0 -> clz64_lzcnt x < 64 /\ highest_one x (63 - clz64_lzcnt x))) /\
  (x < 2 ^ 32 -> (x = 0 -> clz32_lzcnt x = 32) /\ (x <> 0 -> clz32_lzcnt x < 32 /\ highest_one x (31 - clz32_lzcnt x))).
Proof. exact (fun x => conj (hw_lzcnt_spec 64 x) (hw_lzcnt_spec 32 x)). Qed.
Print Assumptions C74_clz_lzcnt.
Theorem C74_clz_popcnt : forall x,
  (x < 2 ^ 64 -> (x = 0 -> clz64_popcnt x = 64) /\ (x <> 0 -> clz64_popcnt x < 64 /\ highest_one x (63 - clz64_popcnt x))) /\
  (x < 2 ^ 32 -> (x = 0 -> clz32_popcnt x = 32) /\ (x <> 0 -> clz32_popcnt x < 32 /\ highest_one x (31 - clz32_popcnt x))).
Proof. exact (fun x => conj (clz64_popcnt_spec x) (clz32_popcnt_spec x)). Qed.
Print Assumptions C74_clz_popcnt.
Example C74_clz_ex : clz64_lzcnt 0x1234 = 51 /\ clz64_popcnt 0x1234 = 51 /\ clz32_lzcnt 0x1234 = 19 /\ clz32_popcnt 0x1234 = 19 /\ clz32 0x1234 = 51.
Proof. repeat split; vm_compute; reflexivity. Qed.

(** select, with POPCNT but without BMI2: no exception for any word (compare C04) *)
Theorem C74_sel_popcnt : forall x i, x < 2 ^ 64 -> 1 <= i -> i <= N.of_nat (ones_below 64 x) ->
  exists p, (p < 64)%nat /\ sel_hw x i = Ok (N.of_nat p + 1) /\ N.testbit x (N.of_nat p) = true /\ N.of_nat (ones_below p x) + 1 = i.
Proof. exact sel_hw_good. Qed.
Print Assumptions C74_sel_popcnt.
(** select with BMI2, for the counts of trailing zeros of BMI and of POPCNT *)
Theorem C74_sel_bmi2 : forall tz x i, tz = ctz64_bmi \/ tz = ctz_popcnt 64 -> x < 2 ^ 64 -> 1 <= i -> i <= N.of_nat (ones_below 64 x) ->
  exists p, (p < 64)%nat /\ sel_bmi2 tz x i = Ok (N.of_nat p + 1) /\ N.testbit x (N.of_nat p) = true /\ N.of_nat (ones_below p x) + 1 = i.
Proof.
  exact (fun tz x i H => sel_bmi2_any tz x i (fun y Hy Hn => match H with
    | or_introl E => eq_ind_r (fun t => lowest_one y (t y)) (proj2 (hw_tzcnt_spec 64 y Hy) Hn) E
    | or_intror E => eq_ind_r (fun t => lowest_one y (t y)) (proj2 (ctz_popcnt_spec 64 y Hy) Hn) E end)).
Qed.
Print Assumptions C74_sel_bmi2.
Example C74_sel_ex : sel_hw 0x0F0F0F0F 2 = Ok 2 /\ sel 0x0F0F0F0F 2 <> Ok 2 /\ sel_bmi2 ctz64_bmi 0x0F0F0F0F 2 = Ok 2 /\
  sel_bmi2 (ctz_popcnt 64) 0xF000000000000001 3 = Ok 62 /\ 3 <= N.of_nat (ones_below 64 0xF000000000000001).
Proof. repeat split; vm_compute; congruence. Qed.

(** the exchanges of neighbouring bytes and of neighbouring pairs of bytes, without MMX *)
Theorem C74_swap_plain : forall x i, i < 64 ->
  N.testbit (swap_pi8_plain x) i = N.testbit x (N.lxor i 8) /\ N.testbit (swap_pi16_plain x) i = N.testbit x (N.lxor i 16).
Proof. exact (fun x i H => conj (swap_pi8_plain_eq x i H) (swap_pi16_plain_eq x i H)). Qed.
Print Assumptions C74_swap_plain.
Example C74_swap_plain_ex : swap_pi8_plain 0x0123456789ABCDEF = 0x23016745AB89EFCD /\ swap_pi16_plain 0x0123456789ABCDEF = 0x45670123CDEF89AB.
Proof. split; vm_compute; reflexivity. Qed.

(** C75 *)
Theorem C75_xor_map_avx2 : forall m x i, m < 256 -> words256 x -> i < 256 ->
  words256 (xor_map_avx2 x m) /\ bit256 (xor_map_avx2 x m) i = bit256 x (N.lxor i m).
Proof. exact xor_map_avx2_bits. Qed.
Print Assumptions C75_xor_map_avx2.
Theorem C75_xor_map_same : forall x m, words256 x -> xor_map_avx2 x m = xor_map x m.
Proof. exact xor_map_avx2_eq. Qed.
Print Assumptions C75_xor_map_same.
Example C75_xor_map_ex : xor_map_avx2 [1; 2; 4; 0x8000000000000000] 0xC1 = [0x4000000000000000; 8; 1; 2] /\
  xor_map_avx2 [0x0123456789ABCDEF; 0; 1; 0xFF] 0xFF = xor_map [0x0123456789ABCDEF; 0; 1; 0xFF] 0xFF.
Proof. split; vm_compute; reflexivity. Qed.

Theorem C75_is_zero_avx2 : forall x, words256 x -> (is_zero256_avx2 x = true <-> value256 x = 0).
Proof. exact is_zero256_avx2_val. Qed.
Print Assumptions C75_is_zero_avx2.
Example C75_is_zero_ex : is_zero256_avx2 [0; 0; 0; 0] = true /\ is_zero256_avx2 [0; 0; 0x100000000; 0] = false.
Proof. split; vm_compute; reflexivity. Qed.

(** Copying four words within one array: the portable loop repeats the first words when the target overlaps the end of the source. *)
Theorem C75_copy256 : forall mem src dst, (src + 4 <= length mem)%nat -> (dst + 4 <= length mem)%nat ->
  exists mem', copy256 mem src dst = Ok mem' /\ length mem' = length mem /\
   (forall i, (i < 4)%nat -> nth (dst + i) mem' 0 = nth (src + Nat.modulo i (if Nat.ltb src dst then dst - src else 4)) mem 0) /\
   (forall j, (j < dst \/ dst + 4 <= j)%nat -> nth j mem' 0 = nth j mem 0).
Proof. exact copy256_exact. Qed.
Print Assumptions C75_copy256.
Theorem C75_copy256_plain : forall mem src dst, (src + 4 <= length mem)%nat -> (dst + 4 <= length mem)%nat -> (dst <= src \/ src + 4 <= dst)%nat ->
  exists mem', copy256 mem src dst = Ok mem' /\ length mem' = length mem /\
   (forall i, (i < 4)%nat -> nth (dst + i) mem' 0 = nth (src + i) mem 0) /\
   (forall j, (j < dst \/ dst + 4 <= j)%nat -> nth j mem' 0 = nth j mem 0).
Proof. exact copy256_plain. Qed.
Print Assumptions C75_copy256_plain.
Theorem C75_copy256_avx2 : forall mem src dst, (src + 4 <= length mem)%nat -> (dst + 4 <= length mem)%nat ->
  Nat.modulo src 4 = 0%nat -> Nat.modulo dst 4 = 0%nat ->
  exists mem', copy256_avx2 mem src dst = Ok mem' /\ length mem' = length mem /\
   (forall i, (i < 4)%nat -> nth (dst + i) mem' 0 = nth (src + i) mem 0) /\
   (forall j, (j < dst \/ dst + 4 <= j)%nat -> nth j mem' 0 = nth j mem 0).
Proof. exact copy256_avx2_exact. Qed.
Print Assumptions C75_copy256_avx2.
Theorem C75_copy256_misaligned : forall mem src dst, (Nat.modulo src 4 <> 0 \/ Nat.modulo dst 4 <> 0)%nat -> copy256_avx2 mem src dst = UB.
Proof. exact copy256_avx2_misaligned. Qed.
Print Assumptions C75_copy256_misaligned.
Example C75_copy256_ex : copy256 [1; 2; 3; 4; 5; 6; 7; 8; 9] 1 5 = Ok [1; 2; 3; 4; 5; 2; 3; 4; 5] /\
  copy256 [1; 2; 3; 4; 5; 6; 7; 8; 9] 0 2 = Ok [1; 2; 1; 2; 1; 2; 7; 8; 9] /\
  copy256_avx2 [1; 2; 3; 4; 5; 6; 7; 8; 9] 0 4 = Ok [1; 2; 3; 4; 1; 2; 3; 4; 9] /\ copy256_avx2 [1; 2; 3; 4; 5; 6; 7; 8; 9] 1 5 = UB.
Proof. repeat split; vm_compute; reflexivity. Qed.

(** popcnt<Word> without POPCNT: right for every type but the four-byte ones (C02) *)
Theorem C01_popcnt_word : forall x, popcnt_word 1 x = N.of_nat (ones_below 8 x) /\ popcnt_word 2 x = N.of_nat (ones_below 16 x) /\
  (x < 2 ^ 64 -> popcnt_word 8 x = N.of_nat (ones_below 64 x)).
Proof. exact popcnt_word_spec. Qed.
Print Assumptions C01_popcnt_word.
Example C01_popcnt_word_ex : popcnt_word 1 0x1F0 = 4 /\ popcnt_word 2 0x1F0 = 5 /\ popcnt_word 8 (2 ^ 64 - 2) = 63.
Proof. repeat split; vm_compute; reflexivity. Qed.
