(** QueryCostModel.v does what the models of the containers do, and how much it counts. *)
From Coq Require Import List NArith ZArith Arith Bool Lia.
From Verif Require Import Base Spec Spec4 CostBase BitUtilModel CalcModel CalcProof BitVectorModel SuccinctModel FitVectorModel WaveletModel WaveletProof FitVectorProof DacModel CalcExact DacExact QueryCostModel.
Import ListNotations.
Local Open Scope nat_scope.

Lemma costs_if A (b : bool) (m m' : cres A) r r' c : costs m r c -> costs m' r' c -> costs (if b then m else m') (if b then r else r') c.
Proof. destruct b; auto. Qed.
Ltac step c := eapply (costs_bind _ _ _ _ c).

Lemma sb_get_cost s i : costs (sb_get_c s i) (sb_get s i) 1.
Proof.
  unfold sb_get_c, sb_get, bv_get_c, bv_get, ref_get. apply (costs_bind _ _ _ _ 0 _ _ 1); [apply costs_free|]. intros r _.
  apply (costs_bind _ _ _ _ 1 _ _ 0); [apply costs_paid|]. intros x _. apply costs_ret.
Qed.
Lemma second_tip_cost b i : costs (second_tip_c b i) (second_tip b i) 1.
Proof.
  unfold second_tip_c, second_tip. apply (costs_bind _ _ _ _ 1 _ _ 0); [apply costs_paid|]. intros r _.
  apply (costs_bind _ _ _ _ 0 _ _ 0); [apply costs_free|]. intros x _. apply costs_ret.
Qed.
Lemma sb_rank_cost s i : costs (sb_rank_c s i) (sb_rank s i) 3.
Proof.
  unfold sb_rank_c, sb_rank. cbv zeta. apply (costs_bind _ _ _ _ 1 _ _ 2); [apply costs_paid|]. intros b _.
  apply (costs_bind _ _ _ _ 1 _ _ 1); [apply second_tip_cost|]. intros t _. apply (costs_bind _ _ _ _ 1 _ _ 0); [apply costs_paid|]. intros w _.
  apply (costs_bind _ _ _ _ 0 _ _ 0); [apply costs_free|]. intros c _. apply costs_ret.
Qed.
Lemma sb_rank0_cost s i : costs (sb_rank0_c s i) (sb_rank0 s i) 3.
Proof. unfold sb_rank0_c, sb_rank0. apply (costs_bind _ _ _ _ 3 _ _ 0); [apply sb_rank_cost|]. intros c _. apply costs_ret. Qed.

Lemma block_search_cost : forall fuel b i lo hi, costs (block_search_c fuel b i lo hi) (block_search fuel b i lo hi) (Nat.log2_up (hi - lo)).
Proof.
  induction fuel as [|fuel IH]; intros b i lo hi; cbn [block_search_c block_search]; destruct (Nat.ltb_spec (lo + 1) hi); try apply costs_ret; try apply costs_free.
  set (c := (lo + hi) / 2). set (D := hi - lo).
  assert (H1 : D <= 2 * 2 ^ (Nat.log2_up D - 1)).
  { destruct (Nat.log2_up_spec D ltac:(lia)) as [_ X]. replace (Nat.log2_up D) with (S (Nat.log2_up D - 1)) in X; [exact X|]. pose proof (Nat.log2_up_pos D ltac:(lia)). lia. }
  assert (U : forall x, x <= 2 ^ (Nat.log2_up D - 1) -> Nat.log2_up x <= Nat.log2_up D - 1).
  { intros x L. apply Nat.log2_up_le_mono in L. rewrite Nat.log2_up_pow2 in L by lia. exact L. }
  assert (P : 1 <= Nat.log2_up D) by (pose proof (Nat.log2_up_pos D ltac:(lia)); lia).
  apply (costs_le _ _ _ (1 + (Nat.log2_up D - 1))); [|lia]. apply costs_bind; [apply costs_paid|]. intros x _. apply costs_if.
  - eapply costs_le; [apply IH|]. apply U. unfold c, D in *. generalize dependent (2 ^ (Nat.log2_up (hi - lo) - 1)). intros; lia.
  - eapply costs_le; [apply IH|]. apply U. unfold c, D in *. generalize dependent (2 ^ (Nat.log2_up (hi - lo) - 1)). intros; lia.
Qed.
Lemma tip_scan_cost : forall k b size i lo off, costs (tip_scan_c k b size i lo off) (tip_scan k b size i lo off) k.
Proof.
  induction k as [|k IH]; intros b size i lo off; cbn [tip_scan_c tip_scan]; [apply costs_ret|]. apply costs_if; [|apply costs_ret].
  apply (costs_bind _ _ _ _ 1 _ _ k); [apply second_tip_cost|]. intros t _. apply costs_if; [apply IH|apply costs_ret].
Qed.
Lemma sb_select_cost selw s i B : (forall l r, lget (sb_tips s) (i / 512) = Ok l -> lget (sb_tips s) (i / 512 + 1) = Ok r -> N.to_nat r + 1 - N.to_nat l <= B) ->
  (length (sb_tips s) = 0 -> sb_num_blocks s <= B) -> costs (sb_select_c selw s i) (sb_select selw s i) (12 + Nat.log2_up B).
Proof.
  intros H1 H2. unfold sb_select_c, sb_select. apply (costs_bind _ _ _ _ 2 _ _ (10 + Nat.log2_up B)).
  - destruct (Nat.eqb_spec (length (sb_tips s)) 0); cbn [negb]; [apply costs_ret|]. apply (costs_bind _ _ _ _ 1 _ _ 1); [apply costs_paid|]. intros l _.
    apply (costs_bind _ _ _ _ 1 _ _ 0); [apply costs_paid|]. intros r _. apply costs_ret.
  - intros [lo hi] E. apply (costs_le _ _ _ (Nat.log2_up B + 10)); [|lia]. apply costs_bind.
    + eapply costs_le; [apply block_search_cost|]. apply Nat.log2_up_le_mono.
      destruct (Nat.eqb_spec (length (sb_tips s)) 0) as [L|L]; cbn [negb] in E.
      * injection E as <- <-. specialize (H2 L). lia.
      * apply bind_Ok_inv in E. destruct E as (l & E1 & E). apply bind_Ok_inv in E. destruct E as (r & E2 & E). injection E as <- <-. exact (H1 _ _ E1 E2).
    + intros lo' _. apply (costs_bind _ _ _ _ 1 _ _ 9); [apply costs_paid|]. intros b _. cbv zeta.
      apply (costs_bind _ _ _ _ 7 _ _ 2); [apply tip_scan_cost|]. intros off _. apply (costs_bind _ _ _ _ 1 _ _ 1); [apply second_tip_cost|]. intros t _.
      apply (costs_bind _ _ _ _ 1 _ _ 0); [apply costs_paid|]. intros w _. apply (costs_bind _ _ _ _ 0 _ _ 0); [apply costs_free|]. intros p _. apply costs_ret.
Qed.

(** the directory built by the constructor *)
Lemma foldM_pres A S (f : S -> A -> res S) (P : S -> Prop) : (forall s x s', P s -> f s x = Ok s' -> P s') -> forall l s s', P s -> foldM f l s = Ok s' -> P s'.
Proof.
  intros H. induction l as [|x l IH]; intros s s' Hs E; cbn [foldM] in E.
  - injection E as <-. exact Hs.
  - apply bind_Ok_inv in E. destruct E as (s1 & E1 & E). exact (IH _ _ (H _ _ _ Hs E1) E).
Qed.
Lemma lset_len A (l : list A) i x l' : lset l i x = Ok l' -> length l' = length l.
Proof. unfold lset. destruct (i <? length l); [|discriminate]. intros E. injection E as <-. apply upd_length. Qed.
Ltac binv E x E1 := apply bind_Ok_inv in E; destruct E as (x & E1 & E).
Lemma block_step_len ws st i st' : block_step ws st i = Ok st' -> length (fst (fst st')) = length (fst (fst st)).
Proof.
  destruct st as [[b s] sw]. unfold block_step. intros E. binv E st1 E1. destruct st1 as [[b1 s1] sw1]. binv E w E2. injection E as <-. cbn [fst].
  destruct (i mod 8 =? 0).
  - binv E1 b2 E3. binv E1 b3 E4. binv E1 b4 E5. injection E1 as <- <- <-. apply lset_len in E3, E5. congruence.
  - binv E1 b2 E3. injection E1 as <- <- <-. reflexivity.
Qed.
Lemma block_finish_len st i b' : block_finish st i = Ok b' -> length b' = length (fst (fst st)).
Proof.
  destruct st as [[b s] sw]. unfold block_finish. destruct (negb (i mod 8 =? 0)); intros E.
  - binv E x E1. apply lset_len in E. exact E.
  - binv E b1 E1. binv E x E2. binv E b3 E3. apply lset_len in E, E1, E3. cbn [fst]. congruence.
Qed.
Lemma build_block_len v b : build_block v = Ok b -> length b = 2 * (bv_size v / 512 + 1).
Proof.
  unfold build_block. intros E. binv E w0 E0. binv E st E1. apply block_finish_len in E. rewrite E.
  apply (foldM_pres _ _ _ (fun st => length (fst (fst st)) = (bv_size v / 512 + 1) * 2)) in E1; [lia| |apply repeat_length].
  intros s x s' H Hs. apply block_step_len in Hs. congruence.
Qed.
Lemma tips_fold b : forall n j st st', foldM (tips_step b) (seq (S j) n) st = Ok st' ->
  Forall (fun t => N.to_nat t <= j) (fst st) -> Forall (fun t => N.to_nat t <= j + n) (fst st') /\ length (fst st') <= length (fst st) + n.
Proof.
  induction n as [|n IH]; intros j st st' E F; cbn [seq foldM] in E.
  - injection E as <-. rewrite !Nat.add_0_r. split; [exact F|lia].
  - binv E st1 E1. destruct st as [t th]. unfold tips_step in E1. binv E1 x E2. cbn [fst] in F.
    assert (X : Forall (fun t => N.to_nat t <= S j) (fst st1) /\ length (fst st1) <= S (length t)).
    { assert (F' : Forall (fun t => N.to_nat t <= S j) t) by (eapply Forall_impl; [|exact F]; intros; cbn beta in *; lia).
      destruct (th <=? x)%N; injection E1 as <-; cbn [fst].
      - split; [|rewrite app_length; cbn [length]; lia]. apply Forall_app. split; [exact F'|]. constructor; [|constructor].
        pose proof (N.mod_le (N.of_nat (S j - 1)) (2 ^ 32) ltac:(discriminate)). lia.
      - split; [exact F'|lia]. }
    destruct X as [X1 X2]. destruct (IH _ _ _ E X1) as [Y1 Y2]. cbn [fst]. split; [|lia]. eapply Forall_impl; [|exact Y1]. intros; cbn beta in *; lia.
Qed.
Lemma build_tips_bound b nb t : 1 <= nb -> build_tips b nb = Ok t -> Forall (fun t => N.to_nat t <= nb - 1) t /\ length t <= nb + 1 /\ t <> [].
Proof.
  intros H E. unfold build_tips in E. binv E st E1. injection E as <-. apply tips_fold in E1; [|constructor; [cbn; lia|constructor]]. destruct E1 as [F L]. cbn [fst length] in L.
  split; [|split; [rewrite app_length; cbn [length]; lia|destruct (fst st); discriminate]].
  apply Forall_app. split; [exact F|]. constructor; [|constructor]. pose proof (N.mod_le (N.of_nat (nb - 1)) (2 ^ 32) ltac:(discriminate)). lia.
Qed.
Lemma directory us v s : sb_build us v = Ok s -> length (sb_block s) = 2 * (bv_size v / 512 + 1) /\ length (sb_tips s) <= bv_size v / 512 + 2.
Proof.
  unfold sb_build. destruct (Nat.eqb_spec (bv_size v) 0) as [Z|Z]; intros E.
  - injection E as <-. rewrite Z. cbn. split; [reflexivity|lia].
  - binv E b E1. binv E t E2. injection E as <-. cbn [sb_block sb_tips]. split; [exact (build_block_len _ _ E1)|].
    destruct us; [|injection E2 as <-; cbn; lia]. apply build_tips_bound in E2; lia.
Qed.
Lemma sb_select_built selw v s i : sb_build true v = Ok s -> costs (sb_select_c selw s i) (sb_select selw s i) (12 + Nat.log2_up (bv_size v / 512 + 1)).
Proof.
  intros E. apply sb_select_cost.
  - intros l r Hl Hr. revert E. unfold sb_build. destruct (Nat.eqb_spec (bv_size v) 0) as [Z|Z]; intros E.
    + injection E as <-. cbn [sb_tips] in Hl. unfold lget in Hl. destruct (i / 512); discriminate.
    + binv E b E1. binv E t E2. injection E as <-. cbn [sb_tips] in *. apply build_tips_bound in E2; [|lia]. destruct E2 as [F _].
      rewrite Forall_forall in F. assert (N.to_nat r <= bv_size v / 512 + 1 - 1); [|lia]. apply F. unfold lget in Hr. destruct (nth_error t (i / 512 + 1)) eqn:X; [|discriminate].
      injection Hr as <-. eapply nth_error_In. exact X.
  - intros _. destruct (directory _ _ _ E) as [L _]. unfold sb_num_blocks. rewrite L. rewrite Nat.mul_comm, Nat.div_mul; lia.
Qed.

(** WaveletTree *)
Lemma wt_child_cost n b i : costs (wt_child_c n b i) (wt_child n b i) 3.
Proof.
  unfold wt_child_c, wt_child. apply (costs_bind _ _ _ _ 3 _ _ 0); [apply costs_if; [apply sb_rank0_cost|apply sb_rank_cost]|]. intros r _. apply costs_ret.
Qed.
Lemma wt_get_loop_cost : forall k nodes id idx v, costs (wt_get_loop_c k nodes id idx v) (wt_get_loop k nodes id idx v) (4 * k - 3).
Proof.
  induction k as [|k IH]; intros nodes id idx v; [apply costs_free|]. destruct k as [|k].
  - cbn [wt_get_loop_c wt_get_loop]. apply (costs_bind _ _ _ _ 0 _ _ 1); [apply costs_free|]. intros n _. apply (costs_bind _ _ _ _ 1 _ _ 0); [apply sb_get_cost|]. intros b _. apply costs_ret.
  - cbn [wt_get_loop_c wt_get_loop] in *. apply (costs_le _ _ _ (0 + (1 + (3 + (4 * S k - 3))))); [|lia].
    apply costs_bind; [apply costs_free|]. intros n _. apply costs_bind; [apply sb_get_cost|]. intros b _. cbv zeta.
    apply costs_bind; [apply wt_child_cost|]. intros i _. apply IH.
Qed.
Lemma wt_rank_c_loop_cost c : forall k nodes id idx, costs (wt_rank_c_loop_c k nodes c id idx) (wt_rank_c_loop k nodes c id idx) (3 * k).
Proof.
  induction k as [|k IH]; intros nodes id idx; [apply costs_ret|]. cbn [wt_rank_c_loop_c wt_rank_c_loop]. cbv zeta.
  apply (costs_le _ _ _ (0 + (3 + 3 * k))); [|lia]. apply costs_bind; [apply costs_free|]. intros n _. apply costs_bind; [apply wt_child_cost|]. intros i _. apply IH.
Qed.

(** FitVector, DacVector *)
Lemma fv_get_cost v i : costs (fv_get_c v i) (fv_get v i) 2.
Proof.
  unfold fv_get_c, fv_get, bits_read_c, bits_read. apply (costs_bind _ _ _ _ 0 _ _ 2); [apply costs_free|]. intros m _.
  apply (costs_bind _ _ _ _ 1 _ _ 1); [apply costs_paid|]. intros x _. apply (costs_bind _ _ _ _ 0 _ _ 1); [apply costs_free|]. intros a _.
  apply costs_if; [apply costs_ret|]. apply (costs_bind _ _ _ _ 1 _ _ 0); [apply costs_paid|]. intros y _. apply (costs_bind _ _ _ _ 0 _ _ 0); [apply costs_free|]. intros b _. apply costs_ret.
Qed.
Lemma depth_le : forall k paths d0 i d, dac_depth_loop k paths d0 i = Ok d -> d0 <= d.
Proof.
  induction k as [|k IH]; intros paths d0 i d E; cbn [dac_depth_loop] in E; [injection E as <-; lia|]. destruct paths as [|p ps]; [discriminate|].
  binv E b E1. destruct b; cbn [negb] in E; [|injection E as <-; lia]. binv E r E2. apply IH in E. lia.
Qed.
Lemma dac_get_deep_cost : forall us layers paths sh i v k d0 d, length us <= k -> dac_depth_loop k paths d0 i = Ok d ->
  costs (dac_get_deep_c us layers paths sh i v) (dac_get_deep us layers paths sh i v) (1 + 6 * (d - d0)).
Proof.
  induction us as [|u us IH]; intros layers paths sh i v k d0 d L E; cbn [dac_get_deep_c dac_get_deep]; [apply costs_ret|].
  destruct paths as [|p ps]; [apply costs_free|]. cbn [length] in L. destruct k as [|k]; [lia|]. cbn [dac_depth_loop] in E. binv E b E1.
  apply costs_bind; [apply sb_get_cost|]. intros b' Eb. rewrite E1 in Eb. injection Eb as <-. destruct b; cbn [negb] in *; [|apply costs_ret].
  binv E r E2. pose proof (depth_le _ _ _ _ _ E) as D.
  apply (costs_le _ _ _ (3 + (2 + (0 + (1 + 6 * (d - S d0)))))); [|lia].
  apply costs_bind; [apply sb_rank_cost|]. intros r' Er. rewrite E2 in Er. injection Er as <-. destruct layers as [|F Ls]; [apply costs_free|].
  apply costs_bind; [apply fv_get_cost|]. intros un _. apply costs_bind; [apply costs_free|]. intros s _. apply (IH _ _ _ _ _ k (S d0)); [lia|exact E].
Qed.
Lemma dac_get_cost D i d : dac_depth D i = Ok d -> costs (dac_get_c D i) (dac_get D i) (3 + 6 * d).
Proof.
  unfold dac_depth, dac_get_c, dac_get. destruct (dac_num D) as [[|n]|]; try discriminate. intros E.
  apply (costs_bind _ _ _ _ 0 _ _ (3 + 6 * d)); [apply costs_free|]. intros L0 _. apply (costs_bind _ _ _ _ 2 _ _ (1 + 6 * d)); [apply fv_get_cost|]. intros v _.
  apply (costs_bind _ _ _ _ 0 _ _ (1 + 6 * d)); [apply costs_free|]. intros u0 _.
  replace (1 + 6 * d) with (1 + 6 * (d - 0)) by lia. eapply dac_get_deep_cost; [|exact E]. rewrite skipn_length, firstn_length. lia.
Qed.

Lemma wt_height_le l h t : l <> [] -> 1 <= h <= 31 -> Forall (fun x => (x < 2 ^ N.of_nat h)%N) l -> wt_make l = Ok t -> wt_height t <= h.
Proof.
  intros Hl Hh F E. assert (F' : Forall (fun x => (x < 2 ^ 31)%N) l).
  { eapply Forall_impl; [|exact F]. intros x Hx. eapply N.lt_le_trans; [exact Hx|]. apply N.pow_le_mono_r; lia. }
  destruct (wt_make_ok l Hl F') as (t' & E' & _ & _ & _ & H). rewrite E in E'. injection E' as <-. rewrite H. apply bits_needed_le; [|lia].
  apply max_element_bound; [|exact F]. apply N.neq_0_lt_0, N.pow_nonzero. discriminate.
Qed.
Lemma wt_get_built l h t i : l <> [] -> 1 <= h <= 31 -> Forall (fun x => (x < 2 ^ N.of_nat h)%N) l -> wt_make l = Ok t -> costs (wt_get_c t i) (wt_get t i) (4 * h - 3).
Proof. intros. pose proof (wt_height_le l h t H H0 H1 H2). eapply costs_le; [apply wt_get_loop_cost|]. lia. Qed.
Lemma wt_rank_c_built l h t c i : l <> [] -> 1 <= h <= 31 -> Forall (fun x => (x < 2 ^ N.of_nat h)%N) l -> wt_make l = Ok t -> costs (wt_rank_c_c t c i) (wt_rank_c t c i) (3 * h).
Proof. intros. pose proof (wt_height_le l h t H H0 H1 H2). eapply costs_le; [apply wt_rank_c_loop_cost|]. lia. Qed.
Lemma dac_get_built units l d i k : l <> [] -> units <> [] -> dac_of_list l units = Ok d -> i < length l -> k < length units ->
  k + 1 = length units \/ (nth i l 0 < 2 ^ N.of_nat (list_sum_nat (firstn (S k) units)))%N -> costs (dac_get_c d i) (dac_get d i) (3 + 6 * k).
Proof.
  intros Hl Hu E Hi Hk H. pose proof (proj1 (dac_defined units l Hl Hu) (ex_intro _ d E)) as (X1 & X2 & X3).
  destruct (dac_every units l Hl Hu) as [_ Y]. destruct Y as (Y1 & _).
  { apply forallb_forall. intros v I. rewrite Forall_forall in X1. apply N.ltb_lt. auto. }
  destruct (Y1 X2 X3) as (d' & E' & _ & _ & Z). rewrite E in E'. injection E' as <-. destruct (Z i Hi) as (j & J1 & J2 & _ & J4).
  eapply costs_le; [apply dac_get_cost; exact J1|]. assert (j <= k); [|lia]. destruct (Nat.le_gt_cases j k) as [|G]; [assumption|]. destruct H as [H|H]; [lia|].
  specialize (J4 k G). lia.
Qed.
