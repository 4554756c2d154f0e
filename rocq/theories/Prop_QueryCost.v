(** C135: how many words the queries of the succinct containers read. [counted m] is the outcome of m together with the
    number of 64-bit words read. *)
From Coq Require Import List NArith ZArith Arith Bool Lia.
From Verif Require Import Base Spec Spec4 CostBase BitUtilModel BitVectorModel SuccinctModel FitVectorModel WaveletModel DacModel QueryCostModel QueryCost.
Import ListNotations.
Local Open Scope nat_scope.

Theorem C135_get : forall s i, rmap snd (counted (sb_get_c s i)) = sb_get s i /\ forall k x, counted (sb_get_c s i) = Ok (k, x) -> k <= 1.
Proof. intros. exact (costs_both _ _ _ _ (sb_get_cost s i)). Qed.
Print Assumptions C135_get.
Theorem C135_rank : forall s i, rmap snd (counted (sb_rank_c s i)) = sb_rank s i /\ forall k x, counted (sb_rank_c s i) = Ok (k, x) -> k <= 3.
Proof. intros. exact (costs_both _ _ _ _ (sb_rank_cost s i)). Qed.
Print Assumptions C135_rank.
Theorem C135_select : forall selw v s i, sb_build true v = Ok s ->
  rmap snd (counted (sb_select_c selw s i)) = sb_select selw s i /\
  forall k x, counted (sb_select_c selw s i) = Ok (k, x) -> k <= 12 + Nat.log2_up (bv_size v / 512 + 1).
Proof. intros selw v s i E. exact (costs_both _ _ _ _ (sb_select_built selw v s i E)). Qed.
Print Assumptions C135_select.
(** two words of directory and at most one select sample per 512 bits *)
Theorem C135_directory : forall us v s, sb_build us v = Ok s -> length (sb_block s) = 2 * (bv_size v / 512 + 1) /\ length (sb_tips s) <= bv_size v / 512 + 2.
Proof. exact directory. Qed.
Print Assumptions C135_directory.
Example C135_select_ex : let v := BV 1600 (repeat 0%N 20 ++ [2 ^ 63; 0; 5; 0; 0]%N) in exists s, sb_build true v = Ok s /\
  sb_select (sel_bmi2 ctz64) s 2 = Ok 1410%N /\ (exists k, counted (sb_select_c (sel_bmi2 ctz64) s 2) = Ok (k, 1410%N) /\ k <= 14) /\ counted (sb_rank_c s 1410) = Ok (3, 2%N).
Proof. cbv zeta. eexists. split; [vm_compute; reflexivity|]. split; [vm_compute; reflexivity|]. split; [|vm_compute; reflexivity]. eexists. split; [vm_compute; reflexivity|lia]. Qed.

(** values of at most h bits *)
Theorem C135_wavelet_access : forall l h t i, l <> [] -> 1 <= h <= 31 -> Forall (fun x => (x < 2 ^ N.of_nat h)%N) l -> wt_make l = Ok t ->
  rmap snd (counted (wt_get_c t i)) = wt_get t i /\ forall k x, counted (wt_get_c t i) = Ok (k, x) -> k <= 4 * h - 3.
Proof. intros l h t i A B C D. exact (costs_both _ _ _ _ (wt_get_built l h t i A B C D)). Qed.
Print Assumptions C135_wavelet_access.
Theorem C135_wavelet_rank : forall l h t c i, l <> [] -> 1 <= h <= 31 -> Forall (fun x => (x < 2 ^ N.of_nat h)%N) l -> wt_make l = Ok t ->
  rmap snd (counted (wt_rank_c_c t c i)) = wt_rank_c t c i /\ forall k x, counted (wt_rank_c_c t c i) = Ok (k, x) -> k <= 3 * h.
Proof. intros l h t c i A B C D. exact (costs_both _ _ _ _ (wt_rank_c_built l h t c i A B C D)). Qed.
Print Assumptions C135_wavelet_rank.
Example C135_wavelet_ex : exists t, wt_make [3; 7; 0; 3; 5; 1; 3; 2]%N = Ok t /\ counted (wt_get_c t 4) = Ok (9, 5%N) /\ counted (wt_rank_c_c t 3 6) = Ok (9, 2).
Proof. eexists. split; [vm_compute; reflexivity|]. split; vm_compute; reflexivity. Qed.

Theorem C135_fit : forall v i, rmap snd (counted (fv_get_c v i)) = fv_get v i /\ forall k x, counted (fv_get_c v i) = Ok (k, x) -> k <= 2.
Proof. intros. exact (costs_both _ _ _ _ (fv_get_cost v i)). Qed.
Print Assumptions C135_fit.
(** a value that fits in the first k+1 layers, or k the last layer *)
Theorem C135_dac : forall units l d i k, l <> [] -> units <> [] -> dac_of_list l units = Ok d -> i < length l -> k < length units ->
  k + 1 = length units \/ (nth i l 0 < 2 ^ N.of_nat (list_sum_nat (firstn (S k) units)))%N ->
  rmap snd (counted (dac_get_c d i)) = dac_get d i /\ forall n x, counted (dac_get_c d i) = Ok (n, x) -> n <= 3 + 6 * k.
Proof. intros units l d i k A B C D E F. exact (costs_both _ _ _ _ (dac_get_built units l d i k A B C D E F)). Qed.
Print Assumptions C135_dac.
Example C135_dac_ex : exists d, dac_of_list [3; 300; 0; 70000; 1; 65536; 16]%N [4; 5; 8] = Ok d /\
  counted (dac_get_c d 0) = Ok (2, 3%N) /\ counted (dac_get_c d 1) = Ok (7, 300%N) /\ counted (dac_get_c d 3) = Ok (11, 70000%N).
Proof. eexists. split; [vm_compute; reflexivity|]. repeat split; vm_compute; reflexivity. Qed.
