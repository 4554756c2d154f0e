(** Proofs for FitMaskModel.v. *)
From Coq Require Import List NArith ZArith Arith Bool Lia.
From Verif Require FitVectorProof.
From Verif Require Import Base Spec BitUtilModel FoDebugModel SmallDebugModel FitVectorModel FitMaskModel WideSpec.
Import ListNotations.
Local Open Scope nat_scope.

(** ** Widths below 64 *)
Section Same.
Variables (w : nat) (m : N).
Hypothesis Hm : WidthMask (N.of_nat w) = Ok m.
Definition lift (r : res fitvec) : res maskvec := do f <- r; Ok (MVec m f).
Lemma same_get : forall f i, fv_width f = w -> mk_get (MVec m f) i = fv_get f i.
Proof. intros f i H. unfold mk_get, fv_get, bits_read_m, bits_read. cbn [mk_mask mk_rest]. rewrite H, Hm. reflexivity. Qed.
Lemma same_set : forall f i x, fv_width f = w -> mk_set (MVec m f) i x = lift (fv_set f i x).
Proof.
  intros f i x H. unfold mk_set, fv_set, bits_write_m, bits_write, lift. cbn [mk_mask mk_rest]. rewrite H, Hm. cbn [bind].
  match goal with |- bind ?a _ = bind (bind ?a' _) _ => change a' with a; destruct a; reflexivity end.
Qed.
Lemma set_width : forall f i x f', fv_set f i x = Ok f' -> fv_width f' = fv_width f.
Proof. intros f i x f' H. unfold fv_set in H. apply bind_Ok_inv in H. destruct H as (ws & _ & H). now injection H as <-. Qed.
Lemma same_fill : forall x l f, fv_width f = w -> foldM (fun v i => mk_set v i x) l (MVec m f) = lift (foldM (fun v i => fv_set v i x) l f).
Proof.
  induction l; intros f H; [reflexivity|]. cbn [foldM]. rewrite same_set by auto. destruct (fv_set f a x) eqn:E; cbn [lift bind]; try reflexivity.
  apply IHl. apply set_width in E. congruence.
Qed.
Lemma fill_width : forall x l f f', foldM (fun v i => fv_set v i x) l f = Ok f' -> fv_width f' = fv_width f.
Proof. induction l; intros f f' H; cbn [foldM] in H; [now injection H as <-|]. apply bind_Ok_inv in H. destruct H as (g & E & H). apply set_width in E. apply IHl in H. congruence. Qed.
Lemma same_step : forall o f, fv_width f = w -> mk_step (MVec m f) o = lift (fv_step f o) /\ (forall f', fv_step f o = Ok f' -> fv_width f' = w).
Proof.
  intros o f H. destruct o; cbn [mk_step fv_step].
  - split; [reflexivity|]. intros f' E. now injection E as <-.
  - unfold fv_resize_value. split; [now apply same_fill|]. intros f' E. apply fill_width in E. exact (eq_trans E H).
  - unfold fv_assign. split; [now apply same_fill|]. intros f' E. apply fill_width in E. exact (eq_trans E H).
  - unfold fv_push_back. cbv zeta. split; [apply same_set; exact H|]. intros f' E. apply set_width in E. exact (eq_trans E H).
  - split; [now apply same_set|]. intros f' E. apply set_width in E. congruence.
Qed.
Lemma same_run : forall ops f, fv_width f = w -> mk_run (MVec m f) ops = lift (fv_run f ops) /\ (forall f', fv_run f ops = Ok f' -> fv_width f' = w).
Proof.
  unfold mk_run, fv_run. induction ops as [|o ops IH]; intros f H; cbn [foldM].
  - split; [reflexivity|]. intros f' E. congruence.
  - destruct (same_step o f H) as (E & W). rewrite E. destruct (fv_step f o) as [g| | |]; cbn [lift bind]; try (split; [reflexivity|discriminate]). apply IH. now apply W.
Qed.
End Same.

Lemma mask_ok : forall w, w < 64 -> exists m, WidthMask (N.of_nat w) = Ok m.
Proof. intros w H. unfold WidthMask, shl64. replace (N.of_nat w <? 64)%N with true by (symmetry; apply N.ltb_lt; lia). cbn [bind]. eauto. Qed.
Lemma mask_ub : forall w, 64 <= w -> WidthMask (N.of_nat w) = UB.
Proof. intros w H. unfold WidthMask, shl64. replace (N.of_nat w <? 64)%N with false by (symmetry; apply N.ltb_ge; lia). reflexivity. Qed.

Lemma narrow_same : forall w ops, w < 64 -> exists v0, mk_new w = Ok v0 /\
  match fv_run (fv_make w) ops with
  | Ok f => exists v, mk_run v0 ops = Ok v /\ mk_size v = fv_size f /\ forall i, mk_get v i = fv_get f i
  | UB => mk_run v0 ops = UB | Throw => mk_run v0 ops = Throw | Fuel => mk_run v0 ops = Fuel
  end.
Proof.
  intros w ops H. destruct (mask_ok w H) as (m & E). exists (MVec m (fv_make w)). split; [unfold mk_new; now rewrite E|].
  destruct (same_run w m E ops (fv_make w) eq_refl) as (R & W). rewrite R. destruct (fv_run (fv_make w) ops) as [f| | |]; cbn [lift bind]; auto.
  eexists. split; [reflexivity|]. split; [reflexivity|]. intros i. apply (same_get w m E). now apply W.
Qed.
Lemma new_cases : forall w, (w < 64 -> exists v, mk_new w = Ok v /\ mk_new_d w = Ok v) /\ (64 <= w -> mk_new w = UB) /\ mk_new_d 64 = UB /\ (64 < w -> mk_new_d w = Throw).
Proof.
  intros w. split; [|split; [|split]].
  - intros H. destruct (mask_ok w H) as (m & E). unfold mk_new, mk_new_d, WidthMask_d, FoDebugModel.assert_that. replace (N.of_nat w <=? 64)%N with true by (symmetry; apply N.leb_le; lia).
    cbn [bind]. rewrite E. cbn [bind]. eauto.
  - intros H. unfold mk_new. rewrite mask_ub by auto. reflexivity.
  - reflexivity.
  - intros H. unfold mk_new_d, WidthMask_d, FoDebugModel.assert_that. replace (N.of_nat w <=? 64)%N with false by (symmetry; apply N.leb_gt; lia). reflexivity.
Qed.

(** ** Width 64, any mask *)
Definition word (x : N) : Prop := (x < 2 ^ 64)%N.
Lemma word_bits : forall x, word x -> forall i, (64 <= i)%N -> N.testbit x i = false.
Proof.
  intros x H i Hi. destruct (N.eq_dec x 0) as [->|Z]; [apply N.bits_0|]. apply N.bits_above_log2. apply N.lt_le_trans with 64%N; auto. apply N.log2_lt_pow2; [lia|exact H].
Qed.
Lemma bits_word : forall x, (forall i, (64 <= i)%N -> N.testbit x i = false) -> word x.
Proof.
  intros x H. destruct (N.eq_dec x 0) as [->|Z]; [reflexivity|]. unfold word. apply N.log2_lt_pow2; [lia|].
  destruct (N.lt_ge_cases (N.log2 x) 64) as [|G]; auto. specialize (H _ G). rewrite N.bit_log2 in H by auto. discriminate.
Qed.
Lemma wshl_0 : forall x, word x -> wshl x 0 = x.
Proof. intros x H. unfold wshl. rewrite N.shiftl_0_r. unfold wrap64. apply N.mod_small. exact H. Qed.
Lemma ldiff_word : forall x M, word x -> N.land x (wnot M) = N.ldiff x M.
Proof.
  intros x M H. apply N.bits_inj. intros i. rewrite N.land_spec, N.ldiff_spec. destruct (N.lt_ge_cases i 64) as [L|L].
  - rewrite wnot_spec by auto. reflexivity.
  - rewrite (word_bits x H i L). reflexivity.
Qed.
Lemma blend_word : forall M o x, word o -> word x -> word (blend M o x).
Proof. intros M o x Ho Hx. apply bits_word. intros i Hi. unfold blend. rewrite N.lor_spec, N.ldiff_spec, (word_bits o), (word_bits x) by auto. reflexivity. Qed.
Lemma blend_0 : forall M x, blend M 0 x = x.
Proof. intros. unfold blend. rewrite N.ldiff_0_l. apply N.lor_0_l. Qed.

Lemma at64 : forall i, i * 64 / 64 = i /\ i * 64 mod 64 = 0.
Proof. intros. split; [now apply Nat.div_mul|now apply Nat.mod_mul]. Qed.

Section Wide.
Variable M : N.
Hypothesis HM : word M.
Definition holds (v : maskvec) (l : list N) : Prop := v = MVec M (FV 64 (length l) l) /\ Forall word l.
Lemma wide_get : forall v l i, holds v l -> i < length l -> mk_get v i = Ok (N.land (nth i l 0%N) M).
Proof.
  intros v l i (-> & F) Hi. unfold mk_get, bits_read_m. cbn [mk_rest mk_mask fv_words fv_width]. destruct (at64 i) as (-> & ->).
  rewrite (lget_nth _ _ _ 0%N) by auto. reflexivity.
Qed.
Lemma wide_set : forall v l i x, holds v l -> i < length l -> word x ->
  exists v', mk_set v i x = Ok v' /\ holds v' (firstn i l ++ blend M (nth i l 0%N) x :: skipn (S i) l).
Proof.
  intros v l i x (-> & F) Hi Hx. unfold mk_set, bits_write_m. cbn [mk_rest mk_mask fv_words fv_width fv_size]. destruct (at64 i) as (-> & ->).
  rewrite (lget_nth _ _ _ 0%N) by auto. cbn [bind]. unfold shl64. change (N.of_nat 0) with 0%N. change (0 <? 64)%N with true. cbn [bind]. rewrite !wshl_0 by auto.
  rewrite lset_Ok by auto. change (64 <? 64 + 0) with false. cbn [bind]. assert (Wi : word (nth i l 0%N)) by (rewrite Forall_forall in F; apply F; now apply nth_In).
  rewrite ldiff_word by auto. fold (blend M (nth i l 0%N) x). rewrite FitVectorProof.upd_as_app by auto. eexists. split; [reflexivity|]. split.
  - f_equal. f_equal. rewrite app_length, firstn_length. cbn [length]. rewrite skipn_length. lia.
  - apply Forall_app. split; [|constructor]. { rewrite <- (firstn_skipn i l) in F. apply Forall_app in F. tauto. } { now apply blend_word. }
    rewrite <- (firstn_skipn (S i) l) in F. apply Forall_app in F. tauto.
Qed.
Lemma word_size64 : forall n, fv_word_size n 64 = n.
Proof. intros n. unfold fv_word_size. destruct n; [reflexivity|]. cbn [Nat.eqb orb]. replace (S n * 64 - 1) with (63 + n * 64) by lia. rewrite Nat.div_add by lia. simpl. lia. Qed.
Lemma zero_word : word 0. Proof. reflexivity. Qed.
Lemma wide_resize : forall v l n, holds v l -> holds (mk_resize v n) (firstn n l ++ repeat 0%N (n - length l)).
Proof.
  intros v l n (-> & F). split.
  - unfold mk_resize, fv_resize, lresize. cbn [mk_rest mk_mask fv_width fv_words]. rewrite word_size64. f_equal. f_equal. rewrite app_length, firstn_length, repeat_length. lia.
  - apply Forall_app. split. { rewrite <- (firstn_skipn n l) in F. apply Forall_app in F. tauto. } apply Forall_forall. intros y Hy. apply repeat_spec in Hy. subst. apply zero_word.
Qed.
Lemma nth_mid : forall A (a : list A) x c d, nth (length a) (a ++ x :: c) d = x.
Proof. intros. rewrite app_nth2, Nat.sub_diag by lia. reflexivity. Qed.
Lemma wide_fill : forall x c v a b, word x -> holds v (a ++ c ++ b) ->
  exists v', foldM (fun v i => mk_set v i x) (seq (length a) (length c)) v = Ok v' /\ holds v' (a ++ map (fun old => blend M old x) c ++ b).
Proof.
  induction c as [|y c IH]; intros v a b Hx H; cbn [length seq foldM map app]; [eauto|].
  destruct (wide_set v _ (length a) x H) as (v1 & E1 & H1); auto. { rewrite app_length. cbn [app length]. lia. }
  rewrite E1. cbn [bind]. cbn [app] in H1. rewrite nth_mid in H1. rewrite firstn_app, Nat.sub_diag, firstn_all in H1. cbn [firstn app] in H1. rewrite app_nil_r in H1.
  replace (skipn (S (length a)) (a ++ y :: c ++ b)) with (c ++ b) in H1.
  2:{ rewrite skipn_app, skipn_all2 by lia. replace (S (length a) - length a) with 1 by lia. reflexivity. }
  destruct (IH v1 (a ++ [blend M y x]) b Hx) as (v2 & E2 & H2). { rewrite <- app_assoc. exact H1. }
  rewrite app_length in E2. cbn [length] in E2. replace (length a + 1) with (S (length a)) in E2 by lia. rewrite E2. rewrite <- app_assoc in H2. eauto.
Qed.
Lemma map_blend_0 : forall x k, map (fun old => blend M old x) (repeat 0%N k) = repeat x k.
Proof. induction k; simpl; auto. now rewrite blend_0, IHk. Qed.
Lemma wide_one : forall v l o l', holds v l -> op_fits 64 o -> wide_step M l o = Some l' -> exists v', mk_step v o = Ok v' /\ holds v' l'.
Proof.
  intros v l o l' H F E. assert (SZ : mk_size v = length l) by (destruct H as (-> & _); reflexivity).
  destruct o; cbn [wide_step mk_step op_fits] in *.
  - injection E as <-. eexists. split; [reflexivity|]. now apply wide_resize.
  - injection E as <-. pose proof (wide_resize v l n H) as R. rewrite SZ.
    destruct (Nat.le_gt_cases n (length l)) as [L|L].
    + replace (n - length l) with 0 in * by lia. cbn [seq foldM repeat]. eauto.
    + rewrite (firstn_all2 l) in * by lia. destruct (wide_fill x (repeat 0%N (n - length l)) (mk_resize v n) l []) as (v' & E' & H'); auto; [now rewrite app_nil_r|].
      rewrite repeat_length in E'. rewrite app_nil_r, map_blend_0 in H'. eauto.
  - injection E as <-. pose proof (wide_resize v l n H) as R. destruct (wide_fill x (firstn n l ++ repeat 0%N (n - length l)) (mk_resize v n) [] []) as (v' & E' & H'); auto; [now rewrite app_nil_r|].
    cbn [app length] in *. rewrite app_nil_r, map_app, map_blend_0 in H'. replace (length (firstn n l ++ repeat 0%N (n - length l))) with n in E' by (rewrite app_length, firstn_length, repeat_length; lia). eauto.
  - injection E as <-. pose proof (wide_resize v l (length l + 1) H) as R. rewrite firstn_all2 in R by lia. replace (length l + 1 - length l) with 1 in R by lia. cbn [repeat] in R.
    rewrite SZ. replace (length l + 1 - 1) with (length l) by lia. destruct (wide_set _ _ (length l) x R) as (v' & E' & H'); auto. { rewrite app_length. cbn [length]. lia. }
    rewrite nth_mid, blend_0 in H'. rewrite firstn_app, Nat.sub_diag, firstn_all in H'. cbn [firstn] in H'. rewrite app_nil_r in H'.
    rewrite skipn_all2 in H' by (rewrite app_length; cbn [length]; lia). eauto.
  - destruct (Nat.ltb_spec i (length l)) as [L|L]; [|discriminate]. injection E as <-. now apply wide_set.
Qed.
Lemma wide_hist : forall ops v l l', holds v l -> Forall (op_fits 64) ops -> wide_run M l ops = Some l' -> exists v', mk_run v ops = Ok v' /\ holds v' l'.
Proof.
  unfold mk_run. induction ops as [|o ops IH]; intros v l l' H F E; cbn [foldM wide_run] in *.
  - injection E as <-. eauto.
  - inversion F; subst. destruct (wide_step M l o) as [l1|] eqn:E1; [|discriminate]. destruct (wide_one v l o l1 H) as (v1 & -> & H1); auto. cbn [bind]. eauto.
Qed.
End Wide.

Lemma any_mask : forall M ops l, (M < 2 ^ 64)%N -> Forall (op_fits 64) ops -> wide_run M [] ops = Some l ->
  exists v, mk_run (mk_given 64 M) ops = Ok v /\ mk_size v = length l /\ forall i, i < length l -> mk_get v i = Ok (N.land (nth i l 0%N) M).
Proof.
  intros M ops l HM F E. destruct (wide_hist M HM ops (mk_given 64 M) [] l) as (v & R & H); auto; [split; [reflexivity|constructor]|].
  exists v. split; auto. split; [destruct H as (-> & _); reflexivity|]. intros i Hi. now apply wide_get.
Qed.

(** the mask a width of 64 should have *)
Lemma full_bits : forall i, N.testbit (2 ^ 64 - 1) i = (i <? 64)%N.
Proof.
  intros i. change (2 ^ 64 - 1)%N with (N.ones 64). destruct (N.ltb_spec i 64); [now apply N.ones_spec_low|now apply N.ones_spec_high].
Qed.
Lemma full_blend : forall o x, word o -> blend (2 ^ 64 - 1) o x = x.
Proof.
  intros o x Ho. apply N.bits_inj. intros i. unfold blend. rewrite N.lor_spec, N.ldiff_spec, full_bits. destruct (N.ltb_spec i 64).
  - rewrite andb_false_r. reflexivity.
  - rewrite (word_bits o Ho i) by auto. reflexivity.
Qed.
Lemma full_land : forall x, word x -> N.land x (2 ^ 64 - 1) = x.
Proof.
  intros x Hx. apply N.bits_inj. intros i. rewrite N.land_spec, full_bits. destruct (N.ltb_spec i 64); [apply andb_true_r|]. rewrite (word_bits x Hx i) by auto. reflexivity.
Qed.
Lemma map_same : forall (l : list N) (x : N), map (fun _ => x) l = repeat x (length l).
Proof. induction l; intros; simpl; f_equal; auto. Qed.
Lemma full_step : forall l g o, Forall word l -> op_fits 64 o -> wide_step (2 ^ 64 - 1) l o = match nums_step (l, g) o with Some (l', _) => Some l' | None => None end /\
  forall l' g', nums_step (l, g) o = Some (l', g') -> Forall word l'.
Proof.
  intros l g o F H. assert (Ff : forall n, Forall word (firstn n l)) by (intros n; rewrite <- (firstn_skipn n l) in F; apply Forall_app in F; tauto).
  assert (Fs : forall n, Forall word (skipn n l)) by (intros n; rewrite <- (firstn_skipn n l) in F; apply Forall_app in F; tauto).
  assert (Fr : forall x n, word x -> Forall word (repeat x n)) by (intros x n Hx; apply Forall_forall; intros y Hy; apply repeat_spec in Hy; now subst).
  destruct o; cbn [wide_step nums_step op_fits] in *.
  - split; [reflexivity|]. intros l' g' E. injection E as <- <-. apply Forall_app. split; auto. apply Fr. reflexivity.
  - split; [reflexivity|]. intros l' g' E. injection E as <- <-. apply Forall_app. split; [auto|apply Fr; exact H].
  - split.
    + f_equal. rewrite (map_ext_in _ (fun _ => x)). 2:{ intros a Ha. apply full_blend. specialize (Ff n). rewrite Forall_forall in Ff. auto. }
      rewrite map_same. rewrite firstn_length, <- repeat_app. f_equal. lia.
    + intros l' g' E. injection E as <- <-. apply Fr; exact H.
  - split; [reflexivity|]. intros l' g' E. injection E as <- <-. apply Forall_app. split; [auto|]. constructor; [exact H|constructor].
  - destruct (Nat.ltb_spec i (length l)) as [L|L]; [|split; [reflexivity|discriminate]]. split.
    + rewrite full_blend; [reflexivity|]. rewrite Forall_forall in F. apply F. now apply nth_In.
    + intros l' g' E. injection E as <- <-. apply Forall_app. split; [auto|]. constructor; [exact H|exact (Fs (S i))].
Qed.
Lemma full_run : forall ops l g l' g', Forall word l -> Forall (op_fits 64) ops -> nums_run (l, g) ops = Some (l', g') -> wide_run (2 ^ 64 - 1) l ops = Some l' /\ Forall word l'.
Proof.
  induction ops as [|o ops IH]; intros l g l' g' F H E; cbn [nums_run wide_run] in *.
  - injection E as <- <-. auto.
  - inversion H; subst. destruct (full_step l g o F H2) as (S1 & S2). rewrite S1. destruct (nums_step (l, g) o) as [[l1 g1]|]; [|discriminate]. eapply IH; eauto.
Qed.
Lemma right_mask : forall ops l g, Forall (op_fits 64) ops -> nums_run ([], true) ops = Some (l, g) ->
  exists v, mk_run (mk_given 64 (2 ^ 64 - 1)) ops = Ok v /\ mk_size v = length l /\ forall i, i < length l -> mk_get v i = Ok (nth i l 0%N).
Proof.
  intros ops l g F E. destruct (full_run ops [] true l g (Forall_nil _) F E) as (W & Fl). destruct (any_mask (2 ^ 64 - 1) ops l) as (v & R & S & G); auto; [reflexivity|].
  exists v. split; auto. split; auto. intros i Hi. rewrite G by auto. f_equal. apply full_land. rewrite Forall_forall in Fl. apply Fl. now apply nth_In.
Qed.
Lemma Ok_eq : forall A (a b : A), Ok a = Ok b -> a = b.
Proof. intros A a b H. now injection H. Qed.
Lemma only_right_mask : forall M, (M < 2 ^ 64)%N -> (forall x, (x < 2 ^ 64)%N -> exists v, mk_run (mk_given 64 M) [FVPush x] = Ok v /\ mk_get v 0 = Ok x) -> M = (2 ^ 64 - 1)%N.
Proof.
  intros M HM H. destruct (H (2 ^ 64 - 1)%N) as (v & E & G); [reflexivity|]. destruct (any_mask M [FVPush (2 ^ 64 - 1)%N] [(2 ^ 64 - 1)%N]) as (v' & E' & _ & G'); auto.
  { repeat constructor. } rewrite E in E'. injection E' as <-. rewrite G' in G by (simpl; lia). apply Ok_eq in G. cbn [nth] in G. rewrite <- G. rewrite N.land_comm. symmetry. now apply full_land.
Qed.
Lemma zero_mask : forall ops l, Forall (op_fits 64) ops -> wide_run 0 [] ops = Some l ->
  exists v, mk_run (mk_given 64 0) ops = Ok v /\ forall i, i < length l -> mk_get v i = Ok 0%N.
Proof.
  intros ops l F E. destruct (any_mask 0 ops l) as (v & R & _ & G); auto; [reflexivity|]. exists v. split; auto. intros i Hi. rewrite G by auto. now rewrite N.land_0_r.
Qed.
