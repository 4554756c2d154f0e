(** Proofs about FitDebugModel.v *)
From Coq Require Import List NArith ZArith Arith Bool Lia.
From Verif Require Import Base Spec Spec7 BitUtilModel BitUtilProof BitUtilProof2 CalcModel BitVectorModel BitVectorProof BitVectorProof2 SuccinctModel SuccinctProof SuccinctProof2 SuccinctProof3 CalcProof CalcProof2 FitVectorModel FitVectorProof FitVectorProof2 DacModel DacProof DacExact SuffixModel
  FoDebugModel CHTDebugModel SmallDebugModel SmallDebug FitDebugSpec FitDebugModel.
Import ListNotations.
Local Open Scope nat_scope.

Lemma bind_ext : forall A B (m m' : res A) (f g : A -> res B), m = m' -> (forall a, m' = Ok a -> f a = g a) -> bind m f = bind m' g.
Proof. intros A B m m' f g -> H. destruct m'; cbn [bind]; auto. Qed.

Lemma get_in : forall v i, i < fv_size v -> fv_get_d v i = fv_get v i.
Proof. intros v i H. unfold fv_get_d, assert_that. apply Nat.ltb_lt in H. now rewrite H. Qed.
Lemma get_out : forall v i, fv_size v <= i -> fv_get_d v i = Throw.
Proof. intros v i H. unfold fv_get_d, assert_that. apply Nat.ltb_ge in H. now rewrite H. Qed.
Lemma set_in : forall v i x, i < fv_size v -> fv_set_d v i x = fv_set v i x.
Proof. intros v i x H. unfold fv_set_d, assert_that. apply Nat.ltb_lt in H. now rewrite H. Qed.
Lemma set_out : forall v i x, fv_size v <= i -> fv_set_d v i x = Throw.
Proof. intros v i x H. unfold fv_set_d, assert_that. apply Nat.ltb_ge in H. now rewrite H. Qed.
Lemma set_size : forall v i x v', fv_set v i x = Ok v' -> fv_size v' = fv_size v.
Proof. intros v i x v' H. unfold fv_set in H. apply bind_Ok_inv in H. destruct H as (ws & _ & H). injection H as <-. reflexivity. Qed.

Lemma fill_same : forall x n l v, fv_size v = n -> Forall (fun i => i < n) l ->
  foldM (fun v i => fv_set_d v i x) l v = foldM (fun v i => fv_set v i x) l v /\
  forall v', foldM (fun v i => fv_set v i x) l v = Ok v' -> fv_size v' = n.
Proof.
  intros x n l. induction l as [|i l IH]; intros v Hn F; cbn [foldM].
  - split; auto. intros v' E. injection E as <-. auto.
  - assert (Hi : i < n) by now inversion F. assert (Fl : Forall (fun i => i < n) l) by now inversion F. rewrite set_in by lia. destruct (fv_set v i x) as [v1| | |] eqn:E1; cbn [bind]; try (split; [reflexivity|discriminate]).
    apply IH; auto. rewrite (set_size _ _ _ _ E1). auto.
Qed.

Lemma push_same : forall v x, fv_push_back_d v x = fv_push_back v x.
Proof. intros v x. unfold fv_push_back_d, fv_push_back. apply set_in. cbn. lia. Qed.

Lemma step_same : forall o v, match o with FVWrite i _ => i <? fv_size v | _ => true end = true ->
  fv_step_d v o = fv_step v o /\ forall v', fv_step v o = Ok v' -> fv_size v' = len_after (fv_size v) o.
Proof.
  intros [n|n x|n x|x|i x] v H; cbn [fv_step_d fv_step len_after].
  - split; auto. intros v' E. injection E as <-. reflexivity.
  - apply fill_same; [reflexivity|apply seq_lt].
  - apply fill_same; [reflexivity|]. pose proof (seq_lt 0 n) as Q. now rewrite Nat.sub_0_r in Q.
  - split; [apply push_same|]. intros v' E. unfold fv_push_back in E. apply set_size in E. rewrite E. cbn. lia.
  - apply Nat.ltb_lt in H. split; [now apply set_in|]. intros v'. apply set_size.
Qed.

Lemma hist_same : forall ops v, writes_inside (fv_size v) ops = true -> foldM fv_step_d ops v = foldM fv_step ops v.
Proof.
  induction ops as [|o ops IH]; intros v H; auto. cbn [writes_inside] in H. apply andb_true_iff in H. destruct H as (H1 & H2).
  destruct (step_same o v H1) as (E & Z). cbn [foldM]. rewrite E. apply bind_ext; auto. intros v1 E1. apply IH. rewrite (Z _ E1). exact H2.
Qed.

Lemma mask_in : forall w, w < 64 -> WidthMask_d (N.of_nat w) = WidthMask (N.of_nat w) /\ exists m, WidthMask (N.of_nat w) = Ok m.
Proof.
  intros w H. unfold WidthMask_d, assert_that. replace (N.of_nat w <=? 64)%N with true by (symmetry; apply N.leb_le; lia). cbn [bind]. split; auto.
  exists (N.ones (N.of_nat w)). apply WidthMask_ones. lia.
Qed.
Lemma make_in : forall w, w < 64 -> fv_make_d w = Ok (fv_make w).
Proof. intros w H. destruct (mask_in w H) as (E & m & Em). unfold fv_make_d. now rewrite E, Em. Qed.
Lemma make_out : fv_make_d 64 = UB /\ forall w, 64 < w -> fv_make_d w = Throw.
Proof.
  split; [reflexivity|]. intros w H. unfold fv_make_d, WidthMask_d, assert_that. replace (N.of_nat w <=? 64)%N with false by (symmetry; apply N.leb_gt; lia). reflexivity.
Qed.

Lemma run_same : forall w ops, w < 64 -> writes_inside 0 ops = true -> fv_run_d w ops = fv_run (fv_make w) ops.
Proof. intros w ops H I. unfold fv_run_d. rewrite make_in by auto. cbn [bind]. now apply hist_same. Qed.

Lemma step_tape_size : forall w n T o st, tape_step w (n, T) o = Some st -> fst st = len_after n o.
Proof.
  intros w n T [m|m x|m x|x|i x] st E; cbn [tape_step] in E; try (injection E as <-; cbn; lia).
  destruct (i <? n); [|discriminate]. injection E as <-. reflexivity.
Qed.
Lemma step_tape_in : forall w n T o, match o with FVWrite i _ => i <? n | _ => true end = true <-> tape_step w (n, T) o <> None.
Proof. intros w n T [m|m x|m x|x|i x]; cbn [tape_step]; try (split; [discriminate|reflexivity]). destruct (i <? n); split; congruence. Qed.

Lemma hist_throw : forall w ops v n T, 1 <= w <= 63 -> Forall op_word ops -> fv_tape w v n T -> writes_inside n ops = false -> foldM fv_step_d ops v = Throw.
Proof.
  intros w. induction ops as [|o ops IH]; intros v n T Hw F R H; [discriminate|]. cbn [writes_inside] in H. pose proof R as (_ & En & _).
  inversion F as [|? ? Fo Fs]. pose proof (step_tape_in w n T o) as P. cbn [foldM].
  destruct (match o with FVWrite i _ => i <? n | _ => true end) eqn:E0.
  - cbn [andb] in H. destruct (tape_step w (n, T) o) as [[n1 T1]|] eqn:E1; [|exfalso; now apply (proj1 P)].
    destruct (fv_step_tape w o v n T (n1, T1)) as (v1 & S1 & R1); auto. rewrite <- En in E0. rewrite (proj1 (step_same o v E0)), S1. cbn [bind].
    apply (IH v1 n1 T1); auto. rewrite (step_tape_size _ _ _ _ _ E1 : n1 = _). exact H.
  - destruct o; try discriminate. cbn [fv_step_d]. rewrite set_out; [reflexivity|]. apply Nat.ltb_ge in E0. lia.
Qed.

Lemma make_tape : forall w, fv_tape w (fv_make w) 0 (fun _ => false).
Proof.
  intros w. unfold fv_tape. split; [reflexivity|]. split; [reflexivity|]. split; [reflexivity|]. split; [constructor|].
  intros q. unfold bitat. cbn [fv_words fv_make]. now destruct (q / 64).
Qed.

Lemma run_throw : forall w ops, 1 <= w <= 63 -> Forall op_word ops -> writes_inside 0 ops = false -> fv_run_d w ops = Throw.
Proof. intros w ops H F I. unfold fv_run_d. rewrite make_in by lia. cbn [bind]. apply (hist_throw w ops _ 0 (fun _ => false)); auto. apply make_tape. Qed.

Lemma inside_tape : forall w ops n T, writes_inside n ops = true -> exists st, tape_run w (n, T) ops = Some st.
Proof.
  intros w. induction ops as [|o ops IH]; intros n T H; [eexists; reflexivity|]. cbn [writes_inside] in H. apply andb_true_iff in H. destruct H as (H1 & H2).
  cbn [tape_run]. pose proof (proj1 (step_tape_in w n T o) H1) as P. destruct (tape_step w (n, T) o) as [[n1 T1]|] eqn:E; [|congruence].
  apply IH. now rewrite (step_tape_size _ _ _ _ _ E : n1 = _).
Qed.

Lemma run_ok : forall w ops, 1 <= w <= 63 -> Forall op_word ops -> writes_inside 0 ops = true ->
  exists v, fv_run_d w ops = Ok v /\ fv_run (fv_make w) ops = Ok v /\ fv_size v = fold_left len_after ops 0 /\
    (forall i, i < fv_size v -> exists x, fv_get_d v i = Ok x /\ fv_get v i = Ok x) /\
    (forall i, fv_size v <= i -> fv_get_d v i = Throw /\ forall x, fv_set_d v i x = Throw) /\
    (fv_size v = 0 -> fv_front_d v = Throw /\ fv_back_d v = Throw) /\
    (fv_size v <> 0 -> fv_front_d v = fv_front v /\ fv_back_d v = fv_back v).
Proof.
  intros w ops H F I. rewrite run_same by (auto; lia). destruct (inside_tape w ops 0 (fun _ => false) I) as ([n T] & E).
  destruct (fv_run_tape w ops (fv_make w) 0 (fun _ => false) (n, T) H F (make_tape w) E) as (v & Ev & R). exists v. split; auto. split; auto.
  pose proof R as (_ & En & _). cbn [fst] in En. split.
  { assert (G : forall ops n T n1 T1, tape_run w (n, T) ops = Some (n1, T1) -> n1 = fold_left len_after ops n).
    { clear. induction ops as [|o ops IH]; intros n T n1 T1 E; cbn [tape_run] in E; [injection E as <- _; reflexivity|].
      destruct (tape_step w (n, T) o) as [[n2 T2]|] eqn:E2; [|discriminate]. cbn [fold_left]. rewrite <- (step_tape_size _ _ _ _ _ E2 : n2 = _). eapply IH; eauto. }
    rewrite En. eapply G; eauto. }
  split. { intros i Hi. rewrite get_in by auto. eexists. split; eapply fv_get_tape; eauto; cbn [fst]; lia. }
  split. { intros i Hi. split; [now apply get_out|]. intros x. now apply set_out. }
  split.
  - intros Z. unfold fv_front_d, fv_back_d. rewrite get_out by lia. rewrite Z. auto.
  - intros Z. unfold fv_front_d, fv_back_d, fv_front, fv_back. destruct (Nat.eqb_spec (fv_size v) 0); [lia|]. rewrite !get_in by lia. auto.
Qed.

Lemma foldM_same : forall A B (f g : A -> B -> res A) l a, (forall a b, f a b = g a b) -> foldM f l a = foldM g l a.
Proof. intros A B f g l. induction l as [|b l IH]; intros a H; auto. cbn [foldM]. rewrite H. destruct (g a b); cbn [bind]; auto. Qed.

Lemma list_same : forall l, fv_of_list_d l = fv_of_list l.
Proof.
  intros l. destruct (forallb (fun v => (v <? 2 ^ 63)%N) l) eqn:E.
  - assert (F' : Forall (fun x => (x < 2 ^ 63)%N) l) by (apply Forall_forall; intros x I; apply N.ltb_lt; apply (proj1 (forallb_forall _ _) E x I)).
    unfold fv_of_list_d, fv_of_list. apply bind_ext; auto. intros w Ew. rewrite make_in.
    + cbn [bind]. apply foldM_same. apply push_same.
    + destruct l as [|x l]; [injection Ew as <-; lia|]. cbn [minimal_word_size] in Ew.
      assert (M : (max_element (x :: l) < 2 ^ 63)%N) by (apply max_element_bound; auto; lia).
      assert (W : w <= 63); [|lia]. revert Ew. generalize (max_element (x :: l)) M. intros y Hy Ew.
      rewrite SizeFitsInBits_ok in Ew by lia. injection Ew as <-. apply bits_needed_le; auto; lia.
  - assert (X : exists x, In x l /\ (2 ^ 63 <= x)%N).
    { induction l as [|a l IH]; [discriminate|]. cbn [forallb] in E. apply andb_false_iff in E. destruct E as [E|E].
      - exists a. apply N.ltb_ge in E. split; [left; auto|auto].
      - destruct (IH E) as (x & I & Hx). exists x. split; [right; auto|auto]. }
    destruct X as (x & I & Hx). rewrite (fv_of_list_UB l x I Hx). unfold fv_of_list_d.
    destruct l as [|a l]; [destruct I|]. cbn [minimal_word_size].
    rewrite SizeFitsInBits_UB; auto. apply N.le_trans with x; auto. now apply max_element_le.
Qed.

(** ** DacVector *)
Lemma push_deep_same : forall units layers paths x, Forall (fun u => u < 64) units -> dac_push_deep_d units layers paths x = dac_push_deep units layers paths x.
Proof.
  induction units as [|u us IH]; intros layers paths x F; auto. inversion F as [|? ? Fu Fs]. cbn [dac_push_deep_d dac_push_deep].
  destruct paths as [|p ps]; auto. apply bind_ext; auto. intros p' _. destruct (negb (0 <? x)%N); auto. destruct layers as [|L Ls]; auto.
  rewrite (proj1 (mask_in u Fu)). apply bind_ext; auto. intros m _. rewrite push_same. apply bind_ext; auto. intros L' _.
  apply bind_ext; auto. intros x' _. now rewrite IH.
Qed.
Lemma push_one_same : forall units st x, Forall (fun u => u < 64) units -> dac_push_d units st x = dac_push units st x.
Proof.
  intros units [layers paths] x F. unfold dac_push_d, dac_push. destruct units as [|u us]; auto. destruct layers as [|L Ls]; auto. inversion F as [|? ? Fu Fs].
  rewrite (proj1 (mask_in u Fu)). apply bind_ext; auto. intros m _. rewrite push_same. apply bind_ext; auto. intros L' _.
  apply bind_ext; auto. intros x' _. now rewrite push_deep_same.
Qed.
Lemma layers_same : forall units, Forall (fun u => u < 64) units -> mapM fv_make_d units = Ok (map fv_make units).
Proof. induction 1; auto. cbn [mapM map]. rewrite make_in by auto. cbn [bind]. now rewrite IHForall. Qed.

Lemma dac_build_same : forall units l, Forall (fun u => u < 64) units -> dac_build_d units l = dac_build units l.
Proof.
  intros units l F. unfold dac_build_d, dac_build. rewrite layers_same by auto. cbn [bind]. destruct units as [|u us]; auto.
  apply bind_ext; auto. intros cf _. apply bind_ext; auto. intros _ _. apply bind_ext; auto.
  apply foldM_same. intros st x. now apply push_one_same.
Qed.
Lemma dac_same : forall units l, units <> [] -> Forall (fun u => u < 64) units -> dac_of_list_d l units = dac_of_list l units.
Proof. intros units l H F. unfold dac_of_list_d, dac_of_list, dac_of_list_gen. destruct l; auto. destruct units; [congruence|]. cbn [bind]. now apply dac_build_same. Qed.
Lemma layers_bad : forall a u b, Forall (fun u => u < 64) a -> 64 <= u -> mapM fv_make_d (a ++ u :: b) = if u =? 64 then UB else Throw.
Proof.
  induction 1 as [|x a Hx Fa IH]; intros H; cbn [app mapM].
  - destruct (Nat.eqb_spec u 64) as [->|Hn]; [now rewrite (proj1 make_out)|]. rewrite (proj2 make_out) by lia. reflexivity.
  - rewrite make_in by auto. cbn [bind]. rewrite IH by auto. now destruct (u =? 64).
Qed.
Lemma dac_bad : forall a u b l, l <> [] -> Forall (fun u => u < 64) a -> 64 <= u -> dac_of_list_d l (a ++ u :: b) = if u =? 64 then UB else Throw.
Proof. intros a u b l H F Hu. unfold dac_of_list_d. destruct l; [congruence|]. unfold dac_build_d. rewrite layers_bad by auto. now destruct (u =? 64). Qed.

Lemma get_deep_same : forall units layers paths l i sh v, deep_ok units layers paths l -> i < length l ->
  dac_get_deep_d units layers paths sh i v = dac_get_deep units layers paths sh i v.
Proof.
  induction units as [|u us IH]; intros layers paths l i sh v D Hi; auto.
  destruct layers as [|L Ls], paths as [|p ps]; try destruct D as (B & V & W & D); try (destruct D; fail).
  cbn [dac_get_deep_d dac_get_deep]. rewrite (sb_get_ok p (map pos l)) by (rewrite ?map_length; auto). cbn [bind].
  rewrite (nth_map_d _ _ pos l i 0%N) by auto. destruct (pos (nth i l 0%N)) eqn:Ex; cbn [negb]; auto.
  rewrite (rank_ok p (map pos l)) by (rewrite ?map_length; auto; lia). cbn [bind]. rewrite Nat2N.id.
  destruct (nth_filter_count N pos l i 0%N Hi Ex) as (A1 & A2). set (r := count_true (firstn i (map pos l))) in *.
  rewrite get_in by (destruct V as (_ & Z & _); rewrite Z, map_length; auto).
  apply bind_ext; auto. intros x _. apply bind_ext; auto. intros s _. apply (IH Ls ps _ r _ _ D). now rewrite map_length.
Qed.

Lemma dac_get_same : forall d units l, dac_ok d units l ->
  (forall i, i < length l -> dac_get_d d i = dac_get d i) /\ (forall i, length l <= i -> dac_get_d d i = Throw).
Proof.
  intros d units l (En & Eu & R). unfold dac_get_d, dac_get. rewrite En, Eu. destruct units as [|u0 us]; [destruct R|].
  destruct (dac_layers d) as [|L0 Ls]; [destruct R|]. destruct R as (V & W & D & _). pose proof V as (_ & Z & _). rewrite map_length in Z.
  change (lget (L0 :: Ls) 0) with (Ok L0). change (lget (u0 :: us) 0) with (Ok u0). cbn [bind]. split; intros i Hi.
  - rewrite get_in by lia. apply bind_ext; auto. intros v _. rewrite firstn_all. cbn [skipn]. apply (get_deep_same us Ls _ _ _ _ _ D). now rewrite map_length.
  - rewrite get_out by lia. reflexivity.
Qed.

Lemma dac_debug : forall units l, l <> [] -> units <> [] -> Forall (fun v => (v < 2 ^ 63)%N) l ->
  Forall (fun u => 1 <= u <= 63) units -> list_sum_nat (removelast units) < max_bits l ->
  exists d, dac_of_list_d l units = Ok d /\ dac_of_list l units = Ok d /\
    forall i, dac_get_d d i = match nth_error l i with Some x => Ok (x mod 2 ^ N.of_nat (list_sum_nat units))%N | None => Throw end.
Proof.
  intros units l Hl Hu F Fu S.
  destruct (build_ok units l F Hu Fu) as (d & E & O); [now apply starts_iff|].
  assert (E' : dac_of_list l units = Ok d). { unfold dac_of_list, dac_of_list_gen. destruct l; [congruence|]. destruct units; [congruence|]. exact E. }
  exists d. rewrite dac_same; auto.
  2:{ eapply Forall_impl; [|exact Fu]. cbn. lia. }
  split; auto. split; auto. destruct (dac_get_same d units l O) as (G1 & G2). intros i. destruct (nth_error l i) as [x|] eqn:En.
  - assert (Hi : i < length l) by (apply nth_error_Some; congruence). rewrite G1 by auto.
    assert (X : nth i l 0%N = x) by now apply nth_error_nth.
    assert (H63 : (x < 2 ^ 63)%N) by (rewrite Forall_forall in F; apply F; eapply nth_error_In; eauto).
    rewrite (get_mod d units l i O Hi); rewrite X; auto. apply N.lt_trans with (2 ^ 63)%N; auto. reflexivity.
  - apply nth_error_None in En. now apply G2.
Qed.

(** ** SuffixArray *)
Lemma build_sa_same : forall s, build_sa_d s = build_sa s.
Proof. intros s. unfold build_sa_d, build_sa. apply bind_ext; auto. intros a _. apply bind_ext; auto. intros b _. apply list_same. Qed.

Lemma foldM_in : forall A B (f g : A -> B -> res A) (P : A -> Prop) l a, P a ->
  (forall a b, In b l -> P a -> f a b = g a b /\ forall a', g a b = Ok a' -> P a') ->
  foldM f l a = foldM g l a /\ forall a', foldM g l a = Ok a' -> P a'.
Proof.
  intros A B f g P l. induction l as [|b l IH]; intros a Pa H; cbn [foldM].
  - split; auto. intros a' E. injection E as <-. auto.
  - destruct (H a b (or_introl eq_refl) Pa) as (E & Q). rewrite E. destruct (g a b) as [a1| | |] eqn:E1; cbn [bind]; try (split; [reflexivity|discriminate]).
    apply IH; auto. intros a2 b2 I2 P2. apply H; auto. now right.
Qed.

Lemma invert_same : forall sa, invert_sa_d sa = invert_sa sa /\
  forall inv, invert_sa sa = Ok inv -> length inv = fv_size sa /\ Forall (fun p => p < fv_size sa) inv.
Proof.
  intros sa. unfold invert_sa_d, invert_sa. apply (foldM_in _ _ _ _ (fun inv => length inv = fv_size sa /\ Forall (fun p => p < fv_size sa) inv)).
  - rewrite repeat_length. split; auto. destruct (fv_size sa) as [|n]; [constructor|]. apply Forall_forall. intros x I. apply repeat_spec in I. lia.
  - intros inv i I (L & F). apply in_seq in I. rewrite get_in by lia. split; auto. intros inv' E. apply bind_Ok_inv in E. destruct E as (p & _ & E).
    unfold cset in E. destruct (N.ltb_spec p (N.of_nat (length inv))); [|discriminate]. rewrite lset_Ok in E by lia. injection E as <-.
    rewrite upd_length. split; auto. rewrite upd_as_app by lia. apply Forall_app. split; [now apply Forall_firstn'|]. constructor; [lia|now apply Forall_skipn'].
Qed.

Lemma lcp_same : forall s sa, build_lcp_d s sa = build_lcp s sa.
Proof.
  intros s sa. unfold build_lcp_d, build_lcp. destruct (invert_same sa) as (E & Q). apply bind_ext; auto. intros inv Ei. destruct (Q _ Ei) as (L & F).
  assert (G : foldM (lcp_step_d s sa inv) (seq 0 (length inv)) (repeat 0 (fv_size sa), 0) = foldM (lcp_step s sa inv) (seq 0 (length inv)) (repeat 0 (fv_size sa), 0)).
  { apply foldM_same. intros [lcp prev] i. unfold lcp_step_d, lcp_step. apply bind_ext; auto. intros q Eq.
    assert (Hq : q < fv_size sa).
    { rewrite Forall_forall in F. apply F. unfold lget in Eq. destruct (nth_error inv i) eqn:En; [|discriminate]. injection Eq as <-. eapply nth_error_In; eauto. }
    destruct (Nat.eqb_spec q (length inv - 1)); auto. rewrite get_in by lia. reflexivity. }
  rewrite G. apply bind_ext; auto. intros r _. rewrite list_same. reflexivity.
Qed.

Lemma suffix_same : forall s, suffix_array_d s = suffix_array s.
Proof. intros s. unfold suffix_array_d, suffix_array. rewrite build_sa_same. apply bind_ext; auto. intros sa _. now rewrite lcp_same. Qed.

Lemma default_get : forall i, dac_get_d dac_default i = Throw.
Proof. intros i. unfold dac_get_d, dac_default. cbn [dac_num dac_layers dac_units dac_paths]. change (lget (repeat (fv_make 8) 8) 0) with (Ok (fv_make 8)). cbn [bind]. rewrite get_out; [reflexivity|]. cbn. lia. Qed.
