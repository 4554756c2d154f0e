(** rank and select of SuccinctBitVector on targets with POPCNT or BMI2: every case. *)
From Coq Require Import List NArith ZArith Lia Bool Arith.
From Verif Require Import Base Spec BitUtilModel BitUtilProof HwModel HwProof BitVectorModel SuccinctModel SuccinctProof SuccinctProof2 SuccinctProof3.
Import ListNotations.
Local Open Scope nat_scope.

Definition fast_selw (selw : N -> N -> res N) : Prop := selw = sel_hw \/ selw = sel_bmi2 ctz64_bmi \/ selw = sel_bmi2 (ctz_popcnt 64).

Lemma fast_selw_ok : forall selw x, fast_selw selw -> (x < 2 ^ 64)%N -> selw_ok selw x.
Proof.
  intros selw x H Hx i [H1 H2]. destruct H as [-> | [-> | -> ]].
  - now apply sel_hw_good.
  - apply sel_bmi2_any; auto. intros y Hy Hn. now apply (hw_tzcnt_spec 64 y Hy).
  - apply sel_bmi2_any; auto. intros y Hy Hn. now apply (ctz_popcnt_spec 64 y Hy).
Qed.

Lemma select_exact : forall selw v l, fast_selw selw -> bv_reach v l -> (N.of_nat (length l) < 2 ^ 41)%N ->
  exists s, sb_build true v = Ok s /\ forall k, k < count_true l ->
    if k / 512 <=? ones_before_last_block l / 512
    then exists p, sb_select selw s k = Ok (N.of_nat p) /\ is_kth_one l k p /\ sb_rank s p = Ok (N.of_nat k)
    else sb_select selw s k = UB.
Proof.
  intros selw v l Hf Hr Hs.
  assert (W : forall x, In x (bv_words v) -> selw_ok selw x) by (intros x Hx; apply fast_selw_ok; auto; eapply bv_reach_words; eauto).
  destruct (select_history v l Hr Hs) as (s & E & A & B). exists s. split; auto. intros k Hk.
  destruct (Nat.leb_spec (k / 512) (ones_before_last_block l / 512)).
  - destruct (A selw W k Hk H) as (p & Ep & Kp). exists p. split; auto. split; auto.
    destruct (rank_history true v l Hr) as (s' & E' & _ & _ & R). rewrite E in E'. injection E' as <-.
    destruct Kp as [K1 K2]. assert (p < length l) by (apply nth_error_Some; congruence).
    destruct (R p) as [R1 _]; [lia|now left|]. now rewrite K2 in R1.
  - apply B; auto. intros ->. cbn in Hk. lia.
Qed.

Lemma rank_exact : forall us v l, bv_reach v l -> exists s, sb_build us v = Ok s /\ forall i, i <= length l ->
  if (i =? length l) && (length l mod 64 =? 0) && negb (length l =? 0) then sb_rank s i = UB
  else sb_rank s i = Ok (N.of_nat (count_true (firstn i l))).
Proof.
  intros us v l Hr. destruct (rank_history us v l Hr) as (s & E & _ & _ & R). exists s. split; auto. intros i Hi.
  destruct (Nat.eqb_spec i (length l)), (Nat.eqb_spec (length l mod 64) 0), (Nat.eqb_spec (length l) 0); cbn [andb negb];
    try (apply R; auto; first [left; lia | right; left; assumption | right; right; now apply length_zero_iff_nil]).
  subst i. destruct (rank_full_history us v l Hr) as (s' & E' & U); auto.
  - intros ->. auto.
  - rewrite E in E'. injection E' as <-. auto.
Qed.
