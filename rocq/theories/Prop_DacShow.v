(** C153: DacVector::ShowStatus *)
From Coq Require Import List NArith ZArith Arith Bool Lia.
From Verif Require Import Base Spec CalcModel FitVectorModel DacModel SplitSpec Spec31 DacShowSpec DacShowModel DacShow.
Import ListNotations.
Local Open Scope nat_scope.

(** one level: the loop over the paths reads the first of none *)
Theorem C153_single_level : forall u l d, l <> [] -> dac_of_list l [u] = Ok d -> dac_show d = UB.
Proof. intros u l d Hl E. exact (proj1 (show_all [u] l d Hl ltac:(discriminate) E) eq_refl). Qed.
Print Assumptions C153_single_level.
Example C153_single_level_ex : (do d <- dac_of_list [5; 1]%N [3]; Ok (length (dac_units d))) = Ok 1.
Proof. vm_compute. reflexivity. Qed.

(** two levels or more: every number printed, from the values and the widths; the two sums are kept in an int *)
Theorem C153_numbers : forall units l d, l <> [] -> 2 <= length units -> dac_of_list l units = Ok d ->
  exists bytes, dac_show d = Ok (Report (length l) bytes (bytes * 8, length l) (low32 (Z.of_N (flag_bytes l 0 units))) (low32 (Z.of_N (chunk_bytes l 0 units))) units) /\
    N.of_nat bytes = (16 + 8 * N.of_nat (length units) + chunk_bytes l 0 units + flag_bytes l 0 units)%N.
Proof. intros units l d Hl H E. refine (proj2 (show_all units l d Hl _ E) H). intros ->. cbn in H. lia. Qed.
Print Assumptions C153_numbers.
Example C153_numbers_ex : let l := map (fun i => match i mod 4 with 0 => 300%N | 1 => 20%N | _ => N.of_nat (i mod 7) end) (seq 0 200) in
  (do d <- dac_of_list l [4; 5]; dac_show d) = Ok (Report 200 320 (2560, 200) 72%Z 216%Z [4; 5]) /\ flag_bytes l 0 [4; 5] = 72%N /\ chunk_bytes l 0 [4; 5] = 216%N.
Proof. vm_compute. auto. Qed.

(** as long as the int does not overflow, the two sums make up the size together with the number of levels and the widths *)
Theorem C153_parts : forall units l d r, l <> [] -> units <> [] -> dac_of_list l units = Ok d -> dac_show d = Ok r -> rp_bytes r < 2 ^ 31 ->
  (rp_bits r + rp_flow r + 16 + 8 * Z.of_nat (length units) = Z.of_nat (rp_bytes r))%Z.
Proof. exact show_consistent. Qed.
Print Assumptions C153_parts.
(** past 2^31 the sum is printed as a negative number *)
Theorem C153_overflow : forall z, (2 ^ 31 <= z < 2 ^ 32)%Z -> (low32 z = z - 2 ^ 32 /\ low32 z < 0)%Z.
Proof.
  intros z H. assert (E : (low32 z = z - 2 ^ 32)%Z); [|lia]. unfold low32. replace (z + 2 ^ 31)%Z with (z - 2 ^ 31 + 1 * 2 ^ 32)%Z by lia.
  rewrite Z.mod_add by lia. rewrite Z.mod_small by lia. lia.
Qed.
Print Assumptions C153_overflow.
Example C153_parts_ex : (72 + 216 + 16 + 8 * 2 = 320)%Z /\ int_add 2147483640 16 = (-2147483640)%Z.
Proof. vm_compute. auto. Qed.

(** a default-constructed vector counts a path that its size leaves out; one built from no values is undefined *)
Theorem C153_empty : dac_show dac_default = Ok (Report 0 80 (640, 0) 32%Z 0%Z []) /\ forall units d, dac_of_list [] units = Ok d -> dac_show d = UB.
Proof. split; [vm_compute; reflexivity|]. intros units d E. apply (f_equal (fun x => match x with Ok d => d | _ => d end)) in E. cbn in E. subst d. reflexivity. Qed.
Print Assumptions C153_empty.
Example C153_empty_ex : exists d, dac_of_list [] [4] = Ok d.
Proof. eexists. reflexivity. Qed.
