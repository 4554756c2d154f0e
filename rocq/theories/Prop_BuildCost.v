(** C145: how many elements the functions that fill and build the containers access. In each theorem the first half says that the counting version does the same. *)
From Coq Require Import List NArith ZArith Arith Bool Lia.
From Verif Require Import Base Spec Spec2 CostBase BitUtilModel BitVectorModel SuccinctModel FitVectorModel WaveletModel DacModel MultiBitModel BuildCostModel BuildCost.
Import ListNotations.
Local Open Scope nat_scope.

(** BitVector: push_back touches one word, resize and assign the words they fill *)
Theorem C145_push : forall v b, rmap snd (counted (bv_push_back_c v b)) = bv_push_back v b /\ forall k x, counted (bv_push_back_c v b) = Ok (k, x) -> k <= 2.
Proof. intros. exact (costs_both _ _ _ _ (push_cost v b)). Qed.
Print Assumptions C145_push.
Theorem C145_resize : forall v n b, rmap snd (counted (bv_resize_c v n b)) = bv_resize v n b /\ forall k x, counted (bv_resize_c v n b) = Ok (k, x) -> k <= (n - bv_size v) / 64 + 4.
Proof. intros. exact (costs_both _ _ _ _ (resize_words v n b)). Qed.
Print Assumptions C145_resize.
Theorem C145_assign : forall v n b, rmap snd (counted (bv_assign_c v n b)) = bv_assign v n b /\ forall k x, counted (bv_assign_c v n b) = Ok (k, x) -> k <= n / 64 + 3.
Proof. intros. exact (costs_both _ _ _ _ (assign_words v n b)). Qed.
Print Assumptions C145_assign.
Example C145_bits_ex : exists v, counted (bv_assign_c bv_default 200 true) = Ok (6, v) /\ bv_size v = 200 /\ (exists w, counted (bv_resize_c v 450 false) = Ok (7, w)) /\ (exists w, counted (bv_push_back_c v true) = Ok (2, w)).
Proof. eexists. split; [vm_compute; reflexivity|]. split; [reflexivity|]. split; eexists; vm_compute; reflexivity. Qed.

(** SuccinctBitVector: every word of bits once, six accesses at most for every 512 bits *)
Theorem C145_succinct : forall us v, rmap snd (counted (sb_build_c us v)) = sb_build us v /\
  forall k s, counted (sb_build_c us v) = Ok (k, s) -> k <= Nat.max 1 (bv_size v / 64) + 3 * (bv_size v / 512) + 3 + (if us then 2 * (bv_size v / 512 + 1) else 0).
Proof. intros. exact (costs_both _ _ _ _ (build_cost us v)). Qed.
Print Assumptions C145_succinct.
Example C145_succinct_ex : exists v, bv_assign bv_default 1100 true = Ok v /\ (exists s, counted (sb_build_c false v) = Ok (26, s)) /\ (exists s, counted (sb_build_c true v) = Ok (32, s)).
Proof. eexists. split; [vm_compute; reflexivity|]. split; eexists; vm_compute; reflexivity. Qed.

(** FitVector *)
Theorem C145_fit_push : forall v x, rmap snd (counted (fv_push_back_c v x)) = fv_push_back v x /\ forall k y, counted (fv_push_back_c v x) = Ok (k, y) -> k <= 4.
Proof. intros. exact (costs_both _ _ _ _ (fv_push_cost v x)). Qed.
Print Assumptions C145_fit_push.
Theorem C145_fit_resize : forall v n x, rmap snd (counted (fv_resize_value_c v n x)) = fv_resize_value v n x /\ forall k y, counted (fv_resize_value_c v n x) = Ok (k, y) -> k <= 4 * (n - fv_size v).
Proof. intros. exact (costs_both _ _ _ _ (fv_resize_value_cost v n x)). Qed.
Print Assumptions C145_fit_resize.
Theorem C145_fit_assign : forall v n x, rmap snd (counted (fv_assign_c v n x)) = fv_assign v n x /\ forall k y, counted (fv_assign_c v n x) = Ok (k, y) -> k <= 4 * n.
Proof. intros. exact (costs_both _ _ _ _ (fv_assign_cost v n x)). Qed.
Print Assumptions C145_fit_assign.
Theorem C145_fit : forall l, rmap snd (counted (fv_of_list_c l)) = fv_of_list l /\ forall k v, counted (fv_of_list_c l) = Ok (k, v) -> k <= 6 * length l.
Proof. intros. exact (costs_both _ _ _ _ (fv_of_list_cost l)). Qed.
Print Assumptions C145_fit.
Example C145_fit_ex : exists v, counted (fv_of_list_c (repeat 4095%N 6)) = Ok (26, v) /\ (exists w, counted (fv_resize_value_c v 11 7%N) = Ok (12, w)) /\ (exists w, counted (fv_push_back_c v 7%N) = Ok (2, w)).
Proof. eexists. split; [vm_compute; reflexivity|]. split; eexists; vm_compute; reflexivity. Qed.

(** WaveletTree: the last term is for its nodes, of which there are 2^h - 1 however few values there are *)
Theorem C145_wavelet : forall l, rmap snd (counted (wt_make_c l)) = wt_make l /\
  forall k t, counted (wt_make_c l) = Ok (k, t) -> let h := bits_needed (max_element l) in k <= length l * (3 * h + 2) + 11 * (length l * h) / 512 + 5 * (2 ^ h - 1).
Proof. intros. exact (costs_both _ _ _ _ (wavelet_any l)). Qed.
Print Assumptions C145_wavelet.
Example C145_wavelet_ex : exists t, counted (wt_make_c [5; 0; 7; 2; 5]%N) = Ok (90, t) /\ length (wt_nodes t) = 7.
Proof. eexists. split; vm_compute; reflexivity. Qed.

(** DacVector, for any given widths of the levels *)
Theorem C145_dac : forall units l, rmap snd (counted (dac_build_c units l)) = dac_build units l /\
  forall k d, counted (dac_build_c units l) = Ok (k, d) -> k <= length l * (6 * length units + 4) + 11 * (length l * (length units - 1)) / 512 + 5 * length units + 126.
Proof. intros. exact (costs_both _ _ _ _ (dac_cost units l)). Qed.
Print Assumptions C145_dac.
Example C145_dac_ex : exists d, counted (dac_build_c [3; 4; 5] [1; 100; 4000; 7]%N) = Ok (77, d).
Proof. eexists. vm_compute. reflexivity. Qed.

(** MultiBitVector *)
Theorem C145_multibit : forall U v, 1 <= U <= 3 -> rmap snd (counted (mb_build_c U v)) = mb_build U v /\
  forall k w, counted (mb_build_c U v) = Ok (k, w) -> k <= 64 / U * length (mb_bits v) + (2 ^ U - 1) * (3 * length (mb_bits v) + 8 * U).
Proof. intros U v H. exact (costs_both _ _ _ _ (multibit_cost U v H)). Qed.
Print Assumptions C145_multibit.
Example C145_multibit_ex : exists v w, mb_run 2 (map (fun i => MBSet i (N.of_nat (i mod 4))) (seq 0 40)) = Ok v /\ counted (mb_build_c 2 v) = Ok (97, w).
Proof. eexists. eexists. split; vm_compute; reflexivity. Qed.
