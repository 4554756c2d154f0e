(** Properties C01-C08 (bit_util.hpp, bit_util256.hpp). *)
From Coq Require Import List NArith Lia Bool.
From Verif Require Import Base Spec BitUtilModel BitUtilProof BitUtilProof2 XorMapProof.
Import ListNotations.
Open Scope N_scope.

(** C01 *)
Theorem C01_popcnt64 : forall x, x < 2 ^ 64 -> popcnt64 x = N.of_nat (ones_below 64 x).
Proof. exact popcnt64_spec. Qed.
Print Assumptions C01_popcnt64.
Example C01_popcnt64_ex : 0xF0F0F0F0F0F0F0F1 < 2 ^ 64 /\ popcnt64 0xF0F0F0F0F0F0F0F1 = 33.
Proof. split; reflexivity. Qed.

Theorem C01_popcnt16 : forall x, x < 2 ^ 16 -> popcnt16 x = N.of_nat (ones_below 16 x).
Proof. exact popcnt16_spec. Qed.
Print Assumptions C01_popcnt16.
Example C01_popcnt16_ex : 0xF0F1 < 2 ^ 16 /\ popcnt16 0xF0F1 = 9.
Proof. split; reflexivity. Qed.

Theorem C01_popcnt8 : forall x, x < 256 -> popcnt8 x = N.of_nat (ones_below 8 x).
Proof. exact popcnt8_spec. Qed.
Print Assumptions C01_popcnt8.
Example C01_popcnt8_ex : 0xF1 < 256 /\ popcnt8 0xF1 = 5.
Proof. split; reflexivity. Qed.

(** C02: the portable 32-bit count is wrong exactly on the words whose four low nibbles, or
    whose four high nibbles, are all ones. *)
Theorem C02_popcnt32_iff_partial : forall x, x < 2 ^ 32 ->
  (popcnt32 x = N.of_nat (ones_below 32 x) <->
   N.land x 0x0F0F0F0F <> 0x0F0F0F0F /\ N.land x 0xF0F0F0F0 <> 0xF0F0F0F0).
Proof. exact popcnt32_iff. Qed.
Print Assumptions C02_popcnt32_iff_partial.
Example C02_popcnt32_ex : 0x12345678 < 2 ^ 32 /\ N.land 0x12345678 0x0F0F0F0F <> 0x0F0F0F0F /\
  N.land 0x12345678 0xF0F0F0F0 <> 0xF0F0F0F0 /\ popcnt32 0x12345678 = 13.
Proof. repeat split; vm_compute; congruence. Qed.

Theorem C02_popcnt32_refuted : exists x, x < 2 ^ 32 /\ popcnt32 x <> N.of_nat (ones_below 32 x).
Proof. exists 0x0F0F0F0F. split; vm_compute; congruence. Qed.
Print Assumptions C02_popcnt32_refuted.

(** C03 *)
Theorem C03_ctz64 : forall x, x < 2 ^ 64 ->
  (x = 0 -> ctz64 x = 64) /\ (x <> 0 -> lowest_one x (ctz64 x)).
Proof. exact ctz64_full. Qed.
Print Assumptions C03_ctz64.
Example C03_ctz64_ex : 0xA000000000000000 < 2 ^ 64 /\ 0xA000000000000000 <> 0 /\ ctz64 0xA000000000000000 = 61.
Proof. repeat split; vm_compute; congruence. Qed.

Theorem C03_ctz32 : forall x, x < 2 ^ 32 ->
  (x = 0 -> ctz32 x = 32) /\ (x <> 0 -> lowest_one x (ctz32 x)).
Proof. exact ctz32_full. Qed.
Print Assumptions C03_ctz32.
Example C03_ctz32_ex : 0xA0000000 < 2 ^ 32 /\ 0xA0000000 <> 0 /\ ctz32 0xA0000000 = 29.
Proof. repeat split; vm_compute; congruence. Qed.

Theorem C03_clz64 : forall x, x < 2 ^ 64 ->
  (x = 0 -> clz64 x = 64) /\ (x <> 0 -> clz64 x <= 63 /\ highest_one x (63 - clz64 x)).
Proof. exact clz64_full. Qed.
Print Assumptions C03_clz64.
Example C03_clz64_ex : 0x1234 < 2 ^ 64 /\ 0x1234 <> 0 /\ clz64 0x1234 = 51.
Proof. repeat split; vm_compute; congruence. Qed.

(** clz(uint32_t) is 32 too large on every non-zero word. *)
Theorem C03_clz32_offset_partial : forall x, x < 2 ^ 32 ->
  (x = 0 -> clz32 x = 32) /\ (x <> 0 -> 32 <= clz32 x <= 63 /\ highest_one x (31 - (clz32 x - 32))).
Proof. exact clz32_full. Qed.
Print Assumptions C03_clz32_offset_partial.
Example C03_clz32_offset_ex : 0x1234 < 2 ^ 32 /\ 0x1234 <> 0 /\ clz32 0x1234 = 51.
Proof. repeat split; vm_compute; congruence. Qed.

Theorem C03_clz32_refuted : exists x, x < 2 ^ 32 /\ x <> 0 /\ ~ highest_one x (31 - clz32 x).
Proof. exists 2. repeat split; try (vm_compute; congruence). intros [H _]. vm_compute in H. congruence. Qed.
Print Assumptions C03_clz32_refuted.

(** C04: correct whenever popcnt32 is correct on the low half of the word. *)
Theorem C04_sel_partial : forall x i, x < 2 ^ 64 ->
  N.land x 0x0F0F0F0F <> 0x0F0F0F0F -> N.land x 0xF0F0F0F0 <> 0xF0F0F0F0 ->
  1 <= i -> i <= N.of_nat (ones_below 64 x) ->
  exists p, (p < 64)%nat /\ sel x i = Ok (N.of_nat p + 1) /\
    N.testbit x (N.of_nat p) = true /\ N.of_nat (ones_below p x) + 1 = i.
Proof. exact sel_good_word. Qed.
Print Assumptions C04_sel_partial.
Example C04_sel_ex : sel 0xF000000000000001 3 = Ok 62 /\ 3 <= N.of_nat (ones_below 64 0xF000000000000001) /\
  N.land 0xF000000000000001 0x0F0F0F0F <> 0x0F0F0F0F /\ N.land 0xF000000000000001 0xF0F0F0F0 <> 0xF0F0F0F0.
Proof. repeat split; vm_compute; congruence. Qed.

(** The full statement fails: bit 0 is the first one of 0x0F0F0F0F, and the second one is bit 1. *)
Theorem C04_sel_refuted : exists x i p, x < 2 ^ 64 /\ N.testbit x (N.of_nat p) = true /\
  i = N.of_nat (ones_below p x) + 1 /\ sel x i <> Ok (N.of_nat p + 1).
Proof. exists 0x0F0F0F0F, 2, 1%nat. repeat split; vm_compute; congruence. Qed.
Print Assumptions C04_sel_refuted.

(** The BMI2 variant (pdep + trailing zero count) has no such exception. *)
Theorem C04_sel_bmi2 : forall x i, x < 2 ^ 64 -> 1 <= i -> i <= N.of_nat (ones_below 64 x) ->
  exists p, (p < 64)%nat /\ sel_bmi2 ctz64 x i = Ok (N.of_nat p + 1) /\
    N.testbit x (N.of_nat p) = true /\ N.of_nat (ones_below p x) + 1 = i.
Proof. exact sel_bmi2_good. Qed.
Print Assumptions C04_sel_bmi2.
Example C04_sel_bmi2_ex : sel_bmi2 ctz64 0x0F0F0F0F 2 = Ok 2.
Proof. reflexivity. Qed.

(** C05 *)
Theorem C05_popcnt11 : forall x, x < 2 ^ 64 -> popcnt11 x = N.of_nat (fields_equal 2 32 3 x).
Proof. exact popcnt11_spec. Qed.
Print Assumptions C05_popcnt11.
Theorem C05_popcnt10 : forall x, x < 2 ^ 64 -> popcnt10 x = N.of_nat (fields_equal 2 32 2 x).
Proof. exact popcnt10_spec. Qed.
Print Assumptions C05_popcnt10.
Theorem C05_popcnt111 : forall x, x < 2 ^ 64 -> popcnt111 x = N.of_nat (fields_equal 3 21 7 x).
Proof. exact popcnt111_spec. Qed.
Print Assumptions C05_popcnt111.
Theorem C05_popcnt110 : forall x, x < 2 ^ 64 -> popcnt110 x = N.of_nat (fields_equal 3 21 6 x).
Proof. exact popcnt110_spec. Qed.
Print Assumptions C05_popcnt110.
Theorem C05_popcnt101 : forall x, x < 2 ^ 64 -> popcnt101 x = N.of_nat (fields_equal 3 21 5 x).
Proof. exact popcnt101_spec. Qed.
Print Assumptions C05_popcnt101.
Theorem C05_popcnt100 : forall x, x < 2 ^ 64 -> popcnt100 x = N.of_nat (fields_equal 3 21 4 x).
Proof. exact popcnt100_spec. Qed.
Print Assumptions C05_popcnt100.
Example C05_ex : let x := 0x5B6DA7FF0A5A1237 in
  (popcnt11 x, popcnt10 x, popcnt111 x, popcnt110 x, popcnt101 x, popcnt100 x) = (9, 9, 4, 2, 6, 2).
Proof. vm_compute. reflexivity. Qed.

(** C06: everything except width 64. *)
Theorem C06_WidthMask_partial : forall w, w < 64 -> exists m, WidthMask w = Ok m /\
  forall i, N.testbit m i = (i <? w).
Proof. exact WidthMask_bits. Qed.
Print Assumptions C06_WidthMask_partial.
Theorem C06_bextr_partial : forall x s len, s < 64 -> len < 64 -> bextr x s len = Ok ((x / 2 ^ s) mod 2 ^ len).
Proof. exact bextr_val. Qed.
Print Assumptions C06_bextr_partial.
Example C06_ex : WidthMask 63 = Ok 0x7FFFFFFFFFFFFFFF /\ bextr 0xABCD 4 8 = Ok 0xBC.
Proof. split; reflexivity. Qed.
Theorem C06_WidthMask_refuted : exists w, w <= 64 /\ WidthMask w = UB /\ forall x, bextr x 0 w = UB.
Proof. exists 64. repeat split. intro; discriminate. Qed.
Print Assumptions C06_WidthMask_refuted.

(** C07 *)
Theorem C07_xor_map : forall m x i, m < 256 -> words256 x -> i < 256 ->
  words256 (xor_map x m) /\ bit256 (xor_map x m) i = bit256 x (N.lxor i m).
Proof. exact xor_map_bits. Qed.
Print Assumptions C07_xor_map.
Theorem C07_xor_map_involutive : forall x m, words256 x -> m < 256 -> xor_map (xor_map x m) m = x.
Proof. exact xor_map_involutive. Qed.
Print Assumptions C07_xor_map_involutive.
Example C07_ex : xor_map [1; 2; 4; 0x8000000000000000] 0xC1 = [0x4000000000000000; 8; 1; 2].
Proof. vm_compute. reflexivity. Qed.
Theorem C07_swap_lanes : forall x i, x < 2 ^ 64 -> i < 64 ->
  N.testbit (swap_pi1 x) i = N.testbit x (N.lxor i 1) /\
  N.testbit (swap_pi2 x) i = N.testbit x (N.lxor i 2) /\
  N.testbit (swap_pi4 x) i = N.testbit x (N.lxor i 4) /\
  N.testbit (swap_pi8 x) i = N.testbit x (N.lxor i 8) /\
  N.testbit (swap_pi16 x) i = N.testbit x (N.lxor i 16) /\
  N.testbit (swap_pi32 x) i = N.testbit x (N.lxor i 32).
Proof. exact swaps_all. Qed.
Print Assumptions C07_swap_lanes.
Example C07_swap_ex : swap_pi8 0x1122334455667788 = 0x2211443366558877.
Proof. reflexivity. Qed.

(** C08 *)
Theorem C08_popcnt256 : forall x, words256 x -> popcnt256 x = N.of_nat (ones_below 256 (value256 x)).
Proof. exact popcnt256_val. Qed.
Print Assumptions C08_popcnt256.
Theorem C08_is_zero256 : forall x, words256 x -> (is_zero256 x = true <-> value256 x = 0).
Proof. exact is_zero256_val. Qed.
Print Assumptions C08_is_zero256.
Theorem C08_ctz256 : forall x, words256 x ->
  (value256 x = 0 -> ctz256 x = 256) /\ (value256 x <> 0 -> lowest_one (value256 x) (ctz256 x)).
Proof. exact ctz256_val. Qed.
Print Assumptions C08_ctz256.
Example C08_ex : words256 [0; 0; 12; 7] /\ popcnt256 [0; 0; 12; 7] = 5 /\ ctz256 [0; 0; 12; 7] = 130.
Proof.
  split; [split; [reflexivity|repeat (constructor; [reflexivity|]); constructor]|]. split; vm_compute; reflexivity.
Qed.
Theorem C08_set256 : forall b, words256 (set256_epi1 b) /\ forall i, i < 256 -> N.testbit (value256 (set256_epi1 b)) i = b.
Proof. exact set256_val. Qed.
Print Assumptions C08_set256.
Example C08_set256_ex : value256 (set256_epi1 true) = 2 ^ 256 - 1 /\ value256 (set256_epi1 false) = 0.
Proof. split; reflexivity. Qed.
(** clz256 is wrong on every non-zero argument. *)
Theorem C08_clz256_refuted : forall x, words256 x -> value256 x <> 0 ->
  ~ (clz256 x <= 255 /\ highest_one (value256 x) (255 - clz256 x)).
Proof. exact clz256_wrong. Qed.
Print Assumptions C08_clz256_refuted.
Example C08_clz256_ex : words256 [1; 0; 0; 0] /\ value256 [1; 0; 0; 0] <> 0 /\ clz256 [1; 0; 0; 0] = 63.
Proof.
  split; [split; [reflexivity|repeat (constructor; [reflexivity|]); constructor]|]. split; vm_compute; congruence.
Qed.
