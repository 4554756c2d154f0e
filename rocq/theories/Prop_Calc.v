(** Properties C09-C12 (calc.hpp). *)
From Coq Require Import List NArith Lia Bool Arith.
From Verif Require Import Base Spec CalcModel CalcProof CalcProof2.
Import ListNotations.

(** C09. The full statement (every 64-bit value) fails for the topmost values: the shift count
    reaches 64. The two partial theorems cover every other value; the two others show that the
    bounds are exact. *)
Theorem C09_bits_partial : forall v, (v < 2 ^ 63)%N -> exists k, SizeFitsInBits v = Ok k /\ 1 <= k /\
  (v < 2 ^ N.of_nat k)%N /\ forall j, 1 <= j -> (v < 2 ^ N.of_nat j)%N -> k <= j.
Proof. exact SizeFitsInBits_least. Qed.
Print Assumptions C09_bits_partial.
Example C09_bits_ex : (1000 < 2 ^ 63)%N /\ SizeFitsInBits 1000 = Ok 10 /\ SizeFitsInBits 0 = Ok 1.
Proof. repeat split. Qed.

Theorem C09_bytes_partial : forall v, (v < 2 ^ 56)%N -> exists k, SizeFitsInBytes v = Ok k /\ 1 <= k /\
  (v < 256 ^ N.of_nat k)%N /\ forall j, 1 <= j -> (v < 256 ^ N.of_nat j)%N -> k <= j.
Proof. exact SizeFitsInBytes_least. Qed.
Print Assumptions C09_bytes_partial.
Example C09_bytes_ex : (65536 < 2 ^ 56)%N /\ SizeFitsInBytes 65536 = Ok 3.
Proof. repeat split. Qed.

Theorem C09_bits_top_undefined : forall v, (2 ^ 63 <= v)%N -> SizeFitsInBits v = UB.
Proof. exact SizeFitsInBits_UB. Qed.
Print Assumptions C09_bits_top_undefined.
Example C09_bits_top_ex : (2 ^ 63 <= 2 ^ 63 + 5)%N /\ SizeFitsInBits (2 ^ 63 + 5) = UB.
Proof. split; [intro H; discriminate H|reflexivity]. Qed.

Theorem C09_bytes_top_undefined : forall v, (2 ^ 56 <= v)%N -> SizeFitsInBytes v = UB.
Proof. exact SizeFitsInBytes_UB. Qed.
Print Assumptions C09_bytes_top_undefined.
Example C09_bytes_top_ex : (2 ^ 56 <= 2 ^ 60 + 5)%N /\ SizeFitsInBytes (2 ^ 60 + 5) = UB.
Proof. split; [intro H; discriminate H|reflexivity]. Qed.

Theorem C09_refuted : exists v, (v < 2 ^ 64)%N /\ SizeFitsInBits v = UB /\ SizeFitsInBytes v = UB.
Proof. exists (2 ^ 63)%N. repeat split. Qed.
Print Assumptions C09_refuted.

(** C10. Partial: every unit narrower than the word. *)
Theorem C10_units_partial : forall v sizes, Forall (fun s => (s < 64)%N) sizes ->
  (exists k, 1 <= k <= length sizes /\ (v < 2 ^ fold_right N.add 0 (firstn k sizes))%N) ->
  exists k, SizeFitsAsList v sizes = Ok k /\ 1 <= k <= length sizes /\
    (v < 2 ^ fold_right N.add 0 (firstn k sizes))%N /\
    (forall j, 1 <= j -> j < k -> (2 ^ fold_right N.add 0 (firstn j sizes) <= v)%N).
Proof. exact SizeFitsAsList_least. Qed.
Print Assumptions C10_units_partial.
Example C10_units_ex : Forall (fun s => (s < 64)%N) [3; 5; 8]%N /\
  (300 < 2 ^ fold_right N.add 0 (firstn 3 [3; 5; 8]%N))%N /\ SizeFitsAsList 300 [3; 5; 8]%N = Ok 3.
Proof. split; [repeat constructor|split; reflexivity]. Qed.

Theorem C10_refuted : exists v sizes, (v < 2 ^ 64)%N /\
  (exists k, 1 <= k <= length sizes /\ (v < 2 ^ fold_right N.add 0 (firstn k sizes))%N) /\
  SizeFitsAsList v sizes = UB.
Proof. exists 1%N, [64%N]. split; [reflexivity|]. split; [|reflexivity]. exists 1. split; [simpl; lia|reflexivity]. Qed.
Print Assumptions C10_refuted.

(** C11. Values below 2^63 (the others are undefined by C09_bits_top_undefined). *)
Theorem C11_histogram_partial : forall l, Forall (fun v => (v < 2 ^ 63)%N) l ->
  exists h, bit_length_frequencies l = Ok h /\ length h = max_bits l /\
    forall k, k < max_bits l -> nth k h 0 = count_if (fun v => bits_needed v =? S k) l.
Proof. exact bit_length_frequencies_spec. Qed.
Print Assumptions C11_histogram_partial.
Example C11_histogram_ex : Forall (fun v => (v < 2 ^ 63)%N) [5; 1; 0; 4; 30]%N /\
  bit_length_frequencies [5; 1; 0; 4; 30]%N = Ok [2; 0; 2; 0; 1].
Proof. split; [repeat constructor|reflexivity]. Qed.

Theorem C11_cumulative_partial : forall l, Forall (fun v => (v < 2 ^ 63)%N) l ->
  exists cf, cummulative_frequency_list l = Ok cf /\ length cf = max_bits l /\
    forall k, k < max_bits l -> nth k cf 0 = count_if (fun v => k <? bits_needed v) l.
Proof. exact cummulative_frequency_list_spec. Qed.
Print Assumptions C11_cumulative_partial.
Example C11_cumulative_ex : Forall (fun v => (v < 2 ^ 63)%N) [5; 1; 0; 4; 30]%N /\
  cummulative_frequency_list [5; 1; 0; 4; 30]%N = Ok [5; 3; 3; 1; 1].
Proof. split; [repeat constructor|reflexivity]. Qed.

Theorem C11_refuted : exists l, Forall (fun v => (v < 2 ^ 64)%N) l /\ bit_length_frequencies l = UB.
Proof. exists [(2 ^ 63)%N]. split; [repeat constructor|reflexivity]. Qed.
Print Assumptions C11_refuted.

(** C12. The function as written always reads and writes one element past its vectors. *)
Theorem C12_always_out_of_bounds : forall l mx, l <> [] -> Forall (fun v => (v < 2 ^ 63)%N) l ->
  (N.of_nat (length l) < 2 ^ 57)%N -> split_positions l mx = UB.
Proof. exact split_positions_UB. Qed.
Print Assumptions C12_always_out_of_bounds.
Theorem C12_refuted : exists l, l <> [] /\ Forall (fun v => (v < 2 ^ 64)%N) l /\ split_positions l 8 = UB.
Proof. exists [1; 2; 3; 500; 70000]%N. split; [discriminate|]. split; [repeat constructor|vm_compute; reflexivity]. Qed.
Print Assumptions C12_refuted.

(** With the stray iteration left out, the result is a partition (part of C12 that holds). *)
Theorem C12_split_partial : forall l mx, l <> [] -> Forall (fun v => (v < 2 ^ 63)%N) l ->
  (N.of_nat (length l) < 2 ^ 57)%N -> 2 <= mx ->
  exists r, split_positions_tolerant l mx = Ok (Some r) /\ 1 <= length r <= mx /\ Forall (fun w => 1 <= w) r /\
    list_sum_nat r = max_bits l.
Proof. exact split_positions_tolerant_ok. Qed.
Print Assumptions C12_split_partial.
Example C12_split_ex : let l := (repeat 1 300 ++ repeat 1000 200 ++ repeat 100000 3)%N in
  l <> [] /\ (N.of_nat (length l) < 2 ^ 57)%N /\ max_bits l = 17 /\
  split_positions_tolerant l 8 = Ok (Some [1; 9; 7]) /\
  (* also when separators have to be merged *) split_positions_tolerant l 2 = Ok (Some [1; 16]).
Proof. split; [discriminate|]. split; [reflexivity|].
  split; [vm_compute; reflexivity|split; vm_compute; reflexivity]. Qed.
