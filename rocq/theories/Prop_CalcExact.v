(** C105: the masks and the bit-length helpers as total functions. *)
From Coq Require Import List NArith ZArith Arith Bool Lia.
From Verif Require Import Base Spec BitUtilModel CalcModel FitVectorModel CalcExact.
Import ListNotations.
Local Open Scope nat_scope.

Theorem C105_width_mask : forall w, WidthMask w = if (w <? 64)%N then Ok (2 ^ w - 1)%N else UB.
Proof. exact width_mask_exact. Qed.
Print Assumptions C105_width_mask.
Theorem C105_offset_mask : forall o, OffsetMask o = if (o <? 64)%N then Ok (2 ^ o)%N else UB.
Proof. exact offset_mask_exact. Qed.
Print Assumptions C105_offset_mask.
Theorem C105_bextr : forall x s len, bextr x s len = if (s <? 64)%N && (len <? 64)%N then Ok ((x / 2 ^ s) mod 2 ^ len)%N else UB.
Proof. exact bextr_exact. Qed.
Print Assumptions C105_bextr.
Example C105_masks_ex : WidthMask 63 = Ok 0x7FFFFFFFFFFFFFFF%N /\ WidthMask 64 = UB /\ OffsetMask 63 = Ok 0x8000000000000000%N /\ OffsetMask 64 = UB /\
  bextr 0xABCD 4 8 = Ok 0xBC%N /\ bextr 0xABCD 63 1 = Ok 0%N /\ bextr 0xABCD 0 64 = UB /\ bextr 0xABCD 64 1 = UB.
Proof. vm_compute. auto 10. Qed.

(** [bits_needed v] rounded up to whole units; undefined if that is 64 bits or more *)
Theorem C105_units : forall v u, (1 <= u)%N ->
  let k := ((N.of_nat (bits_needed v) + u - 1) / u)%N in
  SizeFitsInUnits v u = if (k * u <? 64)%N then Ok (N.to_nat k) else UB.
Proof. exact units_exact. Qed.
Print Assumptions C105_units.
(** with units of 0 bits the loop ends only for the value 0, whatever the number of iterations *)
Theorem C105_units_zero : forall v fuel size, 1 <= fuel -> size_fits_loop fuel v 0 size = if (v =? 0)%N then Ok (S size) else Fuel.
Proof. exact units_zero. Qed.
Print Assumptions C105_units_zero.
Theorem C105_bits : forall v, SizeFitsInBits v = if (v <? 2 ^ 63)%N then Ok (bits_needed v) else UB.
Proof. exact bits_total. Qed.
Print Assumptions C105_bits.
Example C105_units_ex : SizeFitsInUnits 0 8 = Ok 1 /\ SizeFitsInUnits 300 8 = Ok 2 /\ SizeFitsInUnits 0xFFFFFFFFFFFFFF 8 = Ok 7 /\ SizeFitsInUnits 0x100000000000000 8 = UB /\
  SizeFitsInUnits 0xFFFFFFFFFFFFFFF 5 = Ok 12 /\ SizeFitsInUnits 1 64 = UB /\ SizeFitsInUnits 1 63 = Ok 1 /\ SizeFitsInUnits 0 0 = Ok 1 /\ SizeFitsInUnits 1 0 = Fuel.
Proof. vm_compute. auto 10. Qed.

(** the least k whose first k widths, all below 64, add up to enough bits; undefined if there is none *)
Theorem C105_list : forall v sizes,
  (forall k, SizeFitsAsList v sizes = Ok k <->
    1 <= k <= length sizes /\ Forall (fun s => (s < 64)%N) (firstn k sizes) /\ (v < 2 ^ fold_right N.add 0 (firstn k sizes))%N /\
    (forall j, 1 <= j -> j < k -> (2 ^ fold_right N.add 0 (firstn j sizes) <= v)%N)) /\
  (SizeFitsAsList v sizes = UB \/ exists k, SizeFitsAsList v sizes = Ok k).
Proof. exact list_total. Qed.
Print Assumptions C105_list.
Example C105_list_ex : SizeFitsAsList 300 [4; 4; 1; 9]%N = Ok 3 /\ SizeFitsAsList 0 [0; 4]%N = Ok 1 /\ SizeFitsAsList 600 [4; 4; 1]%N = UB /\ SizeFitsAsList 1 [64; 1]%N = UB /\
  SizeFitsAsList 1 [1; 64]%N = Ok 1 /\ SizeFitsAsList 0xFFFFFFFFFFFFFFFF [63; 1]%N = Ok 2.
Proof. vm_compute. auto 10. Qed.

Theorem C105_frequencies : forall l, bit_length_frequencies l =
  if forallb (fun v => (v <? 2 ^ 63)%N) l then Ok (map (fun k => count_if (fun v => bits_needed v =? S k) l) (seq 0 (max_bits l))) else UB.
Proof. exact frequencies_exact. Qed.
Print Assumptions C105_frequencies.
Theorem C105_cumulative : forall l, cummulative_frequency_list l =
  if forallb (fun v => (v <? 2 ^ 63)%N) l then Ok (map (fun k => count_if (fun v => k <? bits_needed v) l) (seq 0 (max_bits l))) else UB.
Proof. exact cumulative_exact. Qed.
Print Assumptions C105_cumulative.
Example C105_frequencies_ex : bit_length_frequencies [0; 1; 2; 9; 8; 3]%N = Ok [2; 2; 0; 2] /\ cummulative_frequency_list [0; 1; 2; 9; 8; 3]%N = Ok [6; 4; 2; 2] /\
  bit_length_frequencies [1; 2 ^ 63]%N = UB /\ bit_length_frequencies [] = Ok [].
Proof. vm_compute. auto 10. Qed.

(** the level widths are computed for no list but the empty one *)
Theorem C105_split : forall l mx, (N.of_nat (length l) < 2 ^ 57)%N -> split_positions l mx = match l with [] => Ok None | _ => UB end.
Proof. exact split_total. Qed.
Print Assumptions C105_split.
Example C105_split_ex : split_positions [] 3 = Ok None /\ split_positions [5]%N 3 = UB /\ split_positions [2 ^ 63]%N 3 = UB.
Proof. vm_compute. auto 10. Qed.

(** FitVector from a list of values *)
Theorem C105_fitvector : forall l,
  if forallb (fun v => (v <? 2 ^ 63)%N) l then
    exists v, fv_of_list l = Ok v /\ fv_size v = length l /\ (forall i x, nth_error l i = Some x -> fv_get v i = Ok x) /\ fv_width v = max_bits l
  else fv_of_list l = UB.
Proof. exact fv_of_list_total. Qed.
Print Assumptions C105_fitvector.
Example C105_fitvector_ex : exists v, fv_of_list [5; 0; 2 ^ 63 - 1; 77]%N = Ok v /\ fv_width v = 63 /\ fv_get v 2 = Ok (2 ^ 63 - 1)%N /\ fv_get v 3 = Ok 77%N.
Proof. eexists. split; [vm_compute; reflexivity|]. vm_compute. auto. Qed.
