(** MultiBitVector with repeated build(), and popcnt_ with a width (MultiBitModel.v) *)
From Coq Require Import List NArith ZArith Lia Bool Arith.
From Verif Require Import Base Spec Spec2 MultiBitSpec BitUtilModel BitUtilProof BitUtilProof2 BitVectorProof MultiBitModel MultiBitProof.
Import ListNotations.
Local Open Scope nat_scope.
Ltac Zify.zify_post_hook ::= idtac.

Lemma writes_app : forall a b, writes (a ++ b) = writes a ++ writes b.
Proof. induction a as [|[o|] a IH]; intros; cbn; rewrite ?IH; auto. Qed.

Lemma tips_build : forall U v v', okU U -> small (mb_bits v) -> length (mb_tips v) = kMaxNumTypes U -> mb_build U v = Ok v' ->
  length (mb_tips v') = kMaxNumTypes U.
Proof.
  intros U v v' HU Hs HT E. unfold mb_build in E. destruct (Nat.eqb_spec (length (mb_bits v)) 0).
  - injection E as <-. auto.
  - destruct (num_types_ok U v HU) as (m & Em & Mm & Gm). rewrite Em in E. cbn [bind] in E.
    set (ts := (length (mb_bits v) + kBlocksInTipSize U - 1) / kBlocksInTipSize U) in *.
    destruct (types_fold U (mb_bits v) ts (mb_tips v) HU Hs HT (m - 1)) as (all & Ea & La & Ga).
    { assert (2 ^ U <> 0) by (apply Nat.pow_nonzero; lia). lia. }
    rewrite Ea in E. cbn [bind] in E. injection E as <-. exact La.
Qed.

Lemma run_b_rep : forall U ops, okU U -> Forall (mb_op_fits U) (writes ops) ->
  exists v, mb_run_b U ops = Ok v /\ mrep U v (mb_capacity (per U) (rev (writes ops))) (mb_last (per U) (rev (writes ops))) /\
    forall i, mb_capacity (per U) (rev (writes ops)) <= i -> mb_last (per U) (rev (writes ops)) i = 0%N.
Proof.
  intros U ops HU. destruct (per_facts U HU) as (A & _). induction ops as [|o ops IH] using rev_ind; intros F.
  - exists (mb_default U). split; auto. split; [|auto]. split; [constructor|]. split; [simpl; lia|]. split; [apply repeat_length|]. simpl; intros; lia.
  - rewrite writes_app in *. apply Forall_app in F. destruct F as (F1 & F2). destruct (IH F1) as (v & E & M & Z).
    unfold mb_run_b in *. rewrite foldM_app, E. cbn [bind foldM].
    destruct o as [o|].
    + cbn [writes] in *. apply Forall_inv in F2. rename F2 into Fo. rewrite rev_app_distr. cbn [rev app].
      destruct o as [j x|j].
      * destruct (mb_set_rep U v _ _ j x HU M Fo) as (v' & E' & M'). exists v'. split; [cbn [mb_step_b mb_step]; now rewrite E'|].
        cbn [mb_capacity mb_last]. split.
        -- destruct M' as (M1 & M2 & M3 & M4). split; auto. split; auto. split; auto. intros i Hi. rewrite M4 by auto.
           destruct (Nat.eqb_spec i j); auto. destruct (Nat.leb_spec (mb_capacity (per U) (rev (writes ops))) i); auto. symmetry. auto.
        -- intros i Hi. destruct (Nat.eqb_spec i j); [|apply Z; lia]. subst i. exfalso.
           pose proof (Nat.div_mod j (per U) ltac:(lia)). pose proof (Nat.mod_upper_bound j (per U) ltac:(lia)). nia.
      * pose proof (mb_resize_rep U v _ _ j HU M) as M'. eexists. split; [reflexivity|]. cbn [mb_capacity mb_last]. split.
        -- destruct M' as (M1 & M2 & M3 & M4). split; auto. split; auto. split; auto. intros i Hi. rewrite M4 by auto.
           destruct (Nat.leb_spec (per U * (j / per U + 1)) i); [lia|].
           destruct (Nat.leb_spec (mb_capacity (per U) (rev (writes ops))) i); auto. symmetry. auto.
        -- intros i Hi. destruct (Nat.leb_spec (per U * (j / per U + 1)) i); auto. lia.
    + cbn [writes]. rewrite app_nil_r. destruct M as (M1 & M2 & M3 & M4).
      destruct (mb_rank_ok U v HU M1 M3) as (v' & Eb & Ebits & R). exists v'. split; [cbn [mb_step_b]; now rewrite Eb|].
      split; [|auto]. unfold mrep. rewrite Ebits. split; auto. split; auto. split; [|auto]. eapply tips_build; eauto.
Qed.

Lemma mb_rebuilt : forall U ops, okU U -> Forall (mb_op_fits U) (writes ops) ->
  let cap := mb_capacity (64 / U) (rev (writes ops)) in let value := mb_last (64 / U) (rev (writes ops)) in
  exists v, mb_run_b U ops = Ok v /\
    (forall i, i < cap -> mb_get U v i = Ok (value i)) /\
    (just_built ops -> forall i, i < cap -> value i <> 0%N ->
      mb_rank U v i = Ok (N.of_nat (count_if (fun j => (value j =? value i)%N) (seq 0 i)))).
Proof.
  intros U ops HU F cap value. destruct (run_b_rep U ops HU F) as (v & E & (M1 & M2 & M3 & M4) & _).
  change (mb_capacity (per U) (rev (writes ops))) with cap in *. change (mb_last (per U) (rev (writes ops))) with value in *.
  exists v. split; auto. split.
  - intros i Hi. rewrite mb_get_elem by (auto; lia). f_equal. auto.
  - intros (before & Eo) i Hi Hz.
    assert (F' : Forall (mb_op_fits U) (writes before)) by (subst ops; rewrite writes_app in F; apply Forall_app in F; tauto).
    destruct (run_b_rep U before HU F') as (w & Ew & (W1 & W2 & W3 & W4) & _).
    destruct (mb_rank_ok U w HU W1 W3) as (w' & Eb & Ebits & R).
    assert (v = w').
    { subst ops. unfold mb_run_b in *. rewrite foldM_app, Ew in E. cbn [bind foldM mb_step_b] in E. rewrite Eb in E. cbn [bind] in E. congruence. }
    subst w'. assert (Ei : forall j, j < cap -> elem U (mb_bits w) j = value j) by (intros j Hj; rewrite <- Ebits; auto).
    rewrite R by (rewrite <- ?Ebits, ?Ei, ?M2; auto; rewrite Ebits, Ei; auto). rewrite Ei by auto. f_equal. f_equal.
    change (count_if ?p ?l) with (length (filter p l)). fold (rc (value i) value i).
    apply rc_ext. intros j Hj. apply Ei. lia.
Qed.

(** ** popcnt_ with a width *)
Lemma land_ones_lt : forall w n, (n <= 64)%N -> (N.land w (N.ones n) < 2 ^ 64)%N.
Proof.
  intros. apply bits_lt. intros i Hi. rewrite N.land_spec, N.ones_spec_high by lia. apply andb_false_r.
Qed.

Lemma masked_count : forall U w r t, okU U -> r <= per U -> (w < 2 ^ 64)%N -> (1 <= t)%N ->
  fields_equal U (per U) t (N.land w (N.ones (N.of_nat (r * U)))) = fields_equal U r t w.
Proof.
  intros U w r t HU Hr Hw Ht. rewrite !fields_rc. pose proof (rc_masked U w r (N.to_nat t) HU Hr ltac:(lia)) as X.
  now rewrite N2Nat.id in X.
Qed.

Lemma masked_not : forall U w r t, okU U -> r <= per U -> (w < 2 ^ 64)%N -> (t < 2 ^ N.of_nat U - 1)%N ->
  fields_equal U (per U) (2 ^ N.of_nat U - 1 - t)%N (N.land (wnot w) (N.ones (N.of_nat (r * U)))) = fields_equal U r t w.
Proof.
  intros U w r t HU Hr Hw Ht. rewrite masked_count; [|exact HU|exact Hr|now apply wnot_lt|lia]. rewrite !fields_rc. unfold rc. f_equal. apply filter_ext_in.
  intros j Hj. apply in_seq in Hj. destruct (per_facts U HU) as (A & B & _ & _ & _ & F & _).
  rewrite field_wnot by (auto; nia). pose proof (field_lt U w j).
  destruct (N.eqb_spec (field U w j) t), (N.eqb_spec (2 ^ N.of_nat U - 1 - field U w j) (2 ^ N.of_nat U - 1 - t)); auto; lia.
Qed.

Lemma popcnt_width_ok : forall U t w r, okU U -> t < 2 ^ U -> (w < 2 ^ 64)%N -> r * U < 64 ->
  mb_popcnt_width U t w (N.of_nat (r * U)) = Ok (N.of_nat (fields_equal U r (N.of_nat t) w)).
Proof.
  intros U t w r HU Ht Hw Hr. unfold mb_popcnt_width. rewrite WidthMask_ones by lia. cbn [bind]. f_equal.
  pose proof (land_ones_lt w (N.of_nat (r * U)) ltac:(lia)) as L1. pose proof (land_ones_lt (wnot w) (N.of_nat (r * U)) ltac:(lia)) as L2.
  assert (Hp : r <= per U). { destruct HU as [->|[->| ->]]; [change (per 1) with 64|change (per 2) with 32|change (per 3) with 21]; lia. }
  pose proof (masked_count U w r) as P. pose proof (masked_not U w r) as Q.
  set (m := N.ones (N.of_nat (r * U))) in *. clearbody m.
  pose proof HU as HU'. destruct HU' as [E|[E|E]]; subst U; simpl in Ht.
  - assert (t = 0 \/ t = 1) as [->| ->] by lia.
    + cbn [Nat.eqb]. rewrite popcnt64_spec by auto. f_equal. rewrite <- fields_ones. exact (Q 0%N HU Hp Hw eq_refl).
    + cbn [Nat.eqb]. rewrite popcnt64_spec by auto. f_equal. rewrite <- fields_ones. apply (P 1%N HU Hp Hw). discriminate.
  - assert (t = 0 \/ t = 1 \/ t = 2 \/ t = 3) as [->|[->|[->| ->]]] by lia; cbn [Nat.eqb].
    + rewrite popcnt11_spec by auto. apply f_equal. exact (Q 0%N HU Hp Hw eq_refl).
    + rewrite popcnt10_spec by auto. apply f_equal. exact (Q 1%N HU Hp Hw eq_refl).
    + rewrite popcnt10_spec by auto. apply f_equal. apply (P 2%N HU Hp Hw). discriminate.
    + rewrite popcnt11_spec by auto. apply f_equal. apply (P 3%N HU Hp Hw). discriminate.
  - assert (t = 0 \/ t = 1 \/ t = 2 \/ t = 3 \/ t = 4 \/ t = 5 \/ t = 6 \/ t = 7) as [->|[->|[->|[->|[->|[->|[->| ->]]]]]]] by lia; cbn [Nat.testbit Nat.odd Nat.even Nat.div2 negb].
    + rewrite popcnt111_spec by auto. apply f_equal. exact (Q 0%N HU Hp Hw eq_refl).
    + rewrite popcnt110_spec by auto. apply f_equal. exact (Q 1%N HU Hp Hw eq_refl).
    + rewrite popcnt101_spec by auto. apply f_equal. exact (Q 2%N HU Hp Hw eq_refl).
    + rewrite popcnt100_spec by auto. apply f_equal. exact (Q 3%N HU Hp Hw eq_refl).
    + rewrite popcnt100_spec by auto. apply f_equal. apply (P 4%N HU Hp Hw). discriminate.
    + rewrite popcnt101_spec by auto. apply f_equal. apply (P 5%N HU Hp Hw). discriminate.
    + rewrite popcnt110_spec by auto. apply f_equal. apply (P 6%N HU Hp Hw). discriminate.
    + rewrite popcnt111_spec by auto. apply f_equal. apply (P 7%N HU Hp Hw). discriminate.
Qed.
