(** Proofs about FitVectorModel.v *)
From Coq Require Import List NArith ZArith Lia Bool Arith.
From Verif Require Import Base Spec BitUtilModel BitUtilProof BitUtilProof2 CalcModel CalcProof BitVectorProof FitVectorModel.
Import ListNotations.
Local Open Scope nat_scope.

(** ** One field *)
Lemma bitat_at : forall ws k o, o < 64 -> bitat ws (64 * k + o) = N.testbit (nth k ws 0%N) (N.of_nat o).
Proof.
  intros. unfold bitat. rewrite (Nat.mul_comm 64 k).
  rewrite Nat.div_add_l by lia. rewrite (Nat.div_small o 64), Nat.add_0_r by lia.
  rewrite (Nat.add_comm (k * 64)), Nat.mod_add by lia. now rewrite Nat.mod_small.
Qed.

Lemma ones_bit : forall w i, N.testbit (N.ones w) i = (i <? w)%N.
Proof. intros. destruct (N.ltb_spec i w); [now apply N.ones_spec_low|now apply N.ones_spec_high]. Qed.

Lemma ones_lt64 : forall w, w < 64 -> (N.ones (N.of_nat w) < 2 ^ 64)%N.
Proof. intros. rewrite N.ones_equiv. apply N.lt_le_trans with (2 ^ N.of_nat w)%N; [apply N.lt_pred_l, N.pow_nonzero; lia|apply N.pow_le_mono_r; lia]. Qed.

Lemma bits_read_spec : forall ws p w, small ws -> 1 <= w <= 63 -> p + w <= 64 * length ws ->
  exists v, bits_read ws (p / 64) (p mod 64) w = Ok v /\ (v < 2 ^ N.of_nat w)%N /\
  forall j, j < w -> N.testbit v (N.of_nat j) = bitat ws (p + j).
Proof.
  intros ws p w Hs Hw Hp. destruct (pos_split p) as (k & o & Ep & Ho & -> & ->).
  unfold bits_read. rewrite WidthMask_ones by lia. cbn [bind].
  rewrite (lget_nth _ ws k 0%N) by lia. cbn [bind]. rewrite shr64_Ok by lia. cbn [bind].
  assert (X : forall a, (N.land a (N.ones (N.of_nat w)) < 2 ^ N.of_nat w)%N).
  { intros. rewrite N.land_ones. apply N.mod_upper_bound, N.pow_nonzero. lia. }
  destruct (Nat.leb_spec (w + o) 64).
  - eexists. split; [reflexivity|]. split; [apply X|]. intros j Hj.
    rewrite N.land_spec, ones_bit, N.shiftr_spec'. rewrite (proj2 (N.ltb_lt (N.of_nat j) (N.of_nat w))) by lia.
    rewrite andb_true_r. replace (p + j) with (64 * k + (o + j)) by lia. rewrite bitat_at by lia. f_equal. lia.
  - rewrite (lget_nth _ ws (k + 1) 0%N) by lia. cbn [bind]. rewrite shl64_Ok by lia. cbn [bind].
    eexists. split; [reflexivity|]. split; [apply X|]. intros j Hj.
    rewrite N.land_spec, ones_bit, N.lor_spec, N.shiftr_spec', wshl_spec. rewrite (proj2 (N.ltb_lt (N.of_nat j) (N.of_nat w))) by lia.
    rewrite andb_true_r. rewrite (proj2 (N.ltb_lt (N.of_nat j) 64)) by lia. cbn [andb].
    destruct (Nat.lt_ge_cases (o + j) 64).
    + rewrite (proj2 (N.leb_gt (N.of_nat (64 - o)) (N.of_nat j))) by lia. cbn [andb]. rewrite orb_false_r.
      replace (p + j) with (64 * k + (o + j)) by lia. rewrite bitat_at by lia. f_equal. lia.
    + rewrite (proj2 (N.leb_le (N.of_nat (64 - o)) (N.of_nat j))) by lia. cbn [andb].
      rewrite (testbit_high (nth k ws 0%N) 64) by (try apply small_nth; auto; lia). cbn [orb].
      replace (p + j) with (64 * (k + 1) + (o + j - 64)) by lia. rewrite bitat_at by lia. f_equal. lia.
Qed.

Lemma lor_lt64 : forall a b, (a < 2 ^ 64)%N -> (b < 2 ^ 64)%N -> (N.lor a b < 2 ^ 64)%N.
Proof. intros. apply lt_pow2_bits. intros. rewrite N.lor_spec, (testbit_high a 64), (testbit_high b 64); auto. Qed.

Lemma shiftr_lt64 : forall a n, (a < 2 ^ 64)%N -> (N.shiftr a n < 2 ^ 64)%N.
Proof. intros. apply lt_pow2_bits. intros. rewrite N.shiftr_spec'. apply (testbit_high a 64); auto. lia. Qed.

Lemma bits_write_spec : forall ws p w x, small ws -> 1 <= w <= 63 -> p + w <= 64 * length ws -> (x < 2 ^ N.of_nat w)%N ->
  exists ws', bits_write ws (p / 64) (p mod 64) w x = Ok ws' /\ length ws' = length ws /\ small ws' /\
  forall q, bitat ws' q = if (p <=? q) && (q <? p + w) then N.testbit x (N.of_nat (q - p)) else bitat ws q.
Proof.
  intros ws p w x Hs Hw Hp Hx. destruct (pos_split p) as (k & o & Ep & Ho & -> & ->).
  unfold bits_write. rewrite WidthMask_ones by lia. cbn [bind].
  rewrite (lget_nth _ ws k 0%N) by lia. cbn [bind]. rewrite !shl64_Ok by lia. cbn [bind].
  rewrite lset_Ok by lia. cbn [bind].
  assert (Hx64 : (x < 2 ^ 64)%N).
  { apply N.lt_le_trans with (2 ^ N.of_nat w)%N; auto. apply N.pow_le_mono_r; lia. }
  set (m := N.ones (N.of_nat w)). assert (Hm : (m < 2 ^ 64)%N) by (apply ones_lt64; lia).
  set (w1 := N.lor (N.land (nth k ws 0%N) (wnot (wshl m (N.of_nat o)))) (wshl x (N.of_nat o))).
  assert (S1 : (w1 < 2 ^ 64)%N) by (apply lor_lt64; [apply land_small, small_nth; auto|apply wshl_small]).
  assert (B1 : forall t, t < 64 -> N.testbit w1 (N.of_nat t) =
     if (o <=? t) && (t <? o + w) then N.testbit x (N.of_nat (t - o)) else N.testbit (nth k ws 0%N) (N.of_nat t)).
  { intros t Ht. subst w1. rewrite N.lor_spec, N.land_spec, wnot_spec, !wshl_spec by lia. unfold m. rewrite ones_bit.
    rewrite (proj2 (N.ltb_lt (N.of_nat t) 64)) by lia. cbn [andb].
    destruct (Nat.leb_spec o t).
    - rewrite (proj2 (N.leb_le (N.of_nat o) (N.of_nat t))) by lia. cbn [andb].
      replace (N.of_nat t - N.of_nat o)%N with (N.of_nat (t - o)) by lia.
      destruct (Nat.ltb_spec t (o + w)).
      + rewrite (proj2 (N.ltb_lt (N.of_nat (t - o)) (N.of_nat w))) by lia. cbn [negb]. rewrite andb_false_r. auto.
      + rewrite (proj2 (N.ltb_ge (N.of_nat (t - o)) (N.of_nat w))) by lia. cbn [negb]. rewrite andb_true_r.
        rewrite (testbit_high x (N.of_nat w)) by (auto; lia). apply orb_false_r.
    - rewrite (proj2 (N.leb_gt (N.of_nat o) (N.of_nat t))) by lia. cbn [andb negb]. now rewrite andb_true_r, orb_false_r. }
  destruct (Nat.ltb_spec 64 (w + o)).
  - rewrite (lget_nth _ _ (k + 1) 0%N) by (rewrite upd_length; lia). cbn [bind]. rewrite !shr64_Ok by lia. cbn [bind].
    rewrite lset_Ok by (rewrite upd_length; lia). 
    rewrite nth_upd. destruct (Nat.eqb_spec (k + 1) k); [lia|]. cbn [andb].
    set (w2 := N.lor (N.land (nth (k + 1) ws 0%N) (wnot (N.shiftr m (N.of_nat (64 - o))))) (N.shiftr x (N.of_nat (64 - o)))).
    assert (S2 : (w2 < 2 ^ 64)%N) by (apply lor_lt64; [apply land_small, small_nth; auto|apply shiftr_lt64; auto]).
    eexists. split; [reflexivity|]. rewrite !upd_length. split; auto. split; [apply small_upd; auto; apply small_upd; auto|].
    intros q. rewrite !bitat_upd by (rewrite ?upd_length; lia). destruct (pos_split q) as (a & t & Eq & Ht & -> & ->).
    destruct (Nat.eqb_spec a (k + 1)); [|destruct (Nat.eqb_spec a k)].
    + subst a. subst w2. rewrite N.lor_spec, N.land_spec, wnot_spec, !N.shiftr_spec' by lia. unfold m. rewrite ones_bit.
      replace (N.of_nat t + N.of_nat (64 - o))%N with (N.of_nat (q - p)) by lia.
      rewrite (proj2 (Nat.leb_le p q)) by lia. cbn [andb]. destruct (Nat.ltb_spec q (p + w)).
      * rewrite (proj2 (N.ltb_lt (N.of_nat (q - p)) (N.of_nat w))) by lia. cbn [negb]. now rewrite andb_false_r.
      * rewrite (proj2 (N.ltb_ge (N.of_nat (q - p)) (N.of_nat w))) by lia. cbn [negb]. rewrite andb_true_r.
        rewrite (testbit_high x (N.of_nat w)) by (auto; lia). rewrite orb_false_r. rewrite Eq, bitat_at; auto.
    + subst a. rewrite B1 by auto. replace (bitat ws q) with (N.testbit (nth k ws 0%N) (N.of_nat t)) by (rewrite Eq, bitat_at; auto).
      replace (t - o) with (q - p) by lia.
      destruct (Nat.leb_spec o t), (Nat.leb_spec p q), (Nat.ltb_spec t (o + w)), (Nat.ltb_spec q (p + w)); cbn [andb]; auto; lia.
    + destruct (Nat.leb_spec p q), (Nat.ltb_spec q (p + w)); cbn [andb]; auto; lia.
  - eexists. split; [reflexivity|]. rewrite !upd_length. split; auto. split; [apply small_upd; auto|].
    intros q. rewrite !bitat_upd by lia. destruct (pos_split q) as (a & t & Eq & Ht & -> & ->).
    destruct (Nat.eqb_spec a k).
    + subst a. rewrite B1 by auto. replace (bitat ws q) with (N.testbit (nth k ws 0%N) (N.of_nat t)) by (rewrite Eq, bitat_at; auto).
      replace (t - o) with (q - p) by lia.
      destruct (Nat.leb_spec o t), (Nat.leb_spec p q), (Nat.ltb_spec t (o + w)), (Nat.ltb_spec q (p + w)); cbn [andb]; auto; lia.
    + destruct (Nat.leb_spec p q), (Nat.ltb_spec q (p + w)); cbn [andb]; auto; lia.
Qed.

Lemma Forall_firstn' : forall A (P : A -> Prop) n l, Forall P l -> Forall P (firstn n l).
Proof. intros. rewrite <- (firstn_skipn n l), Forall_app in H. tauto. Qed.
Lemma Forall_skipn' : forall A (P : A -> Prop) n l, Forall P l -> Forall P (skipn n l).
Proof. intros. rewrite <- (firstn_skipn n l), Forall_app in H. tauto. Qed.

(** ** Representation *)
Definition fv_rep (v : fitvec) (l : list N) (grown : bool) : Prop :=
  1 <= fv_width v <= 63 /\ fv_size v = length l /\ length (fv_words v) = fv_word_size (length l) (fv_width v) /\
  small (fv_words v) /\ Forall (fun x => (x < 2 ^ N.of_nat (fv_width v))%N) l /\
  (forall i j, i < length l -> j < fv_width v -> bitat (fv_words v) (i * fv_width v + j) = N.testbit (nth i l 0%N) (N.of_nat j)) /\
  (grown = true -> forall q, length l * fv_width v <= q -> bitat (fv_words v) q = false).

Lemma fv_word_size_ge : forall n w, n * w <= 64 * fv_word_size n w.
Proof.
  intros. unfold fv_word_size. destruct (Nat.eqb_spec n 0); [subst; simpl; lia|]. destruct (Nat.eqb_spec w 0); [subst; simpl; lia|].
  cbn [orb]. pose proof (Nat.div_mod (n * w - 1) 64). pose proof (Nat.mod_upper_bound (n * w - 1) 64). lia.
Qed.

Lemma field_in : forall i n w, i < n -> i * w + w <= n * w.
Proof. intros. replace (i * w + w) with (S i * w) by (simpl; lia). apply Nat.mul_le_mono_r. lia. Qed.

Lemma num_ext : forall w a b, (a < 2 ^ N.of_nat w)%N -> (b < 2 ^ N.of_nat w)%N ->
  (forall j, j < w -> N.testbit a (N.of_nat j) = N.testbit b (N.of_nat j)) -> a = b.
Proof.
  intros w a b Ha Hb H. apply N.bits_inj. intro i. destruct (N.lt_ge_cases i (N.of_nat w)).
  - rewrite <- (N2Nat.id i). apply H. lia.
  - rewrite (testbit_high a (N.of_nat w)), (testbit_high b (N.of_nat w)); auto.
Qed.

Lemma fv_get_rep : forall v l g i, fv_rep v l g -> i < length l -> fv_get v i = Ok (nth i l 0%N).
Proof.
  intros v l g i (Hw & Hz & Hl & Hs & Hf & Hb & _) Hi. unfold fv_get.
  pose proof (fv_word_size_ge (length l) (fv_width v)). pose proof (field_in i (length l) (fv_width v) Hi).
  destruct (bits_read_spec (fv_words v) (i * fv_width v) (fv_width v)) as (x & E & Hx & B); auto; [lia|].
  rewrite E. f_equal. apply num_ext with (fv_width v); auto.
  - apply (proj1 (Forall_forall _ _) Hf). now apply nth_In.
  - intros j Hj. rewrite B by auto. now apply Hb.
Qed.

Lemma upd_as_app : forall A (l : list A) i x, i < length l -> upd l i x = firstn i l ++ x :: skipn (S i) l.
Proof.
  induction l; intros i x H; simpl in H; [lia|]. destruct i; simpl; [reflexivity|]. f_equal. apply IHl. lia.
Qed.

Lemma fv_set_rep : forall v l g i x, fv_rep v l g -> i < length l -> (x < 2 ^ N.of_nat (fv_width v))%N ->
  exists v', fv_set v i x = Ok v' /\ fv_width v' = fv_width v /\ fv_rep v' (upd l i x) g.
Proof.
  intros v l g i x (Hw & Hz & Hl & Hs & Hf & Hb & Hg) Hi Hx. unfold fv_set.
  pose proof (fv_word_size_ge (length l) (fv_width v)). pose proof (field_in i (length l) (fv_width v) Hi).
  destruct (bits_write_spec (fv_words v) (i * fv_width v) (fv_width v) x) as (ws' & E & L & S' & B); auto; [lia|].
  rewrite E. cbn [bind]. eexists. split; [reflexivity|]. split; [reflexivity|].
  unfold fv_rep. cbn [fv_width fv_size fv_words]. rewrite upd_length.
  split; auto. split; auto. split; [congruence|]. split; auto. split; [|split].
  - rewrite upd_as_app by auto. rewrite Forall_app. split; [now apply Forall_firstn'|]. constructor; auto. now apply Forall_skipn'.
  - intros k j Hk Hj. rewrite B, nth_upd. destruct (Nat.eqb_spec k i).
    + subst k. rewrite (proj2 (Nat.leb_le _ _)), (proj2 (Nat.ltb_lt _ _)), (proj2 (Nat.ltb_lt i (length l))) by lia. cbn [andb].
      do 2 f_equal. lia.
    + cbn [andb]. destruct (Nat.lt_ge_cases k i).
      * pose proof (field_in k i (fv_width v) H1). rewrite (proj2 (Nat.leb_gt _ _)) by lia. cbn [andb]. now apply Hb.
      * pose proof (field_in i k (fv_width v)). rewrite (proj2 (Nat.ltb_ge _ _)) by lia. rewrite andb_false_r. now apply Hb.
  - intros G q Hq. rewrite B. rewrite (proj2 (Nat.ltb_ge _ _)) by lia. rewrite andb_false_r. now apply Hg.
Qed.

Lemma bitat_lresize : forall ws n q, bitat (lresize ws n 0%N) q = if q / 64 <? n then bitat ws q else false.
Proof.
  intros. unfold bitat. destruct (Nat.ltb_spec (q / 64) n).
  - rewrite nth_lresize by auto. destruct (Nat.ltb_spec (q / 64) (length ws)); auto.
    rewrite (nth_overflow ws) by auto. reflexivity.
  - rewrite nth_overflow by (rewrite lresize_length; auto). apply N.bits_0.
Qed.

Lemma fv_word_size_mono : forall n m w, n <= m -> fv_word_size n w <= fv_word_size m w.
Proof.
  intros. unfold fv_word_size. destruct (Nat.eqb_spec n 0); [simpl; lia|]. destruct (Nat.eqb_spec w 0); [rewrite !orb_true_r; lia|].
  destruct (Nat.eqb_spec m 0); [lia|]. cbn [orb]. apply Nat.add_le_mono_r, Nat.div_le_mono; [lia|].
  pose proof (Nat.mul_le_mono_r n m w H). lia.
Qed.

Definition fval (ws : list N) (p w : nat) : N := match bits_read ws (p / 64) (p mod 64) w with Ok v => v | _ => 0%N end.

Lemma fval_spec : forall ws p w, small ws -> 1 <= w <= 63 -> p + w <= 64 * length ws ->
  (fval ws p w < 2 ^ N.of_nat w)%N /\ forall j, j < w -> N.testbit (fval ws p w) (N.of_nat j) = bitat ws (p + j).
Proof. intros. unfold fval. destruct (bits_read_spec ws p w) as (v & E & A & B); auto. rewrite E. auto. Qed.

Lemma fv_resize_any : forall v l g n, fv_rep v l g ->
  exists t, length t = n - length l /\ fv_rep (fv_resize v n) (firstn n l ++ t) (g && (length l <=? n)) /\
    (g = true \/ n <= length l -> t = repeat 0%N (n - length l)).
Proof.
  intros v l g n (Hw & Hz & Hl & Hs & Hf & Hb & Hg).
  set (w := fv_width v) in *. set (ws' := lresize (fv_words v) (fv_word_size n w) 0%N).
  assert (Sm : small ws') by (apply small_lresize; auto).
  assert (L' : length ws' = fv_word_size n w) by apply lresize_length.
  pose proof (fv_word_size_ge n w) as G1. pose proof (fv_word_size_ge (length l) w) as G2.
  set (t := map (fun i => fval ws' (i * w) w) (seq (length l) (n - length l))).
  assert (Lt : length t = n - length l) by (unfold t; now rewrite map_length, seq_length).
  assert (Nt : forall i, length l <= i < n -> nth (i - length l) t 0%N = fval ws' (i * w) w).
  { intros i Hi. unfold t. rewrite nth_indep with (d' := fval ws' (0 * w) w) by (rewrite map_length, seq_length; lia).
    rewrite (map_nth (fun i => fval ws' (i * w) w)). rewrite seq_nth by lia. do 2 f_equal. lia. }
  assert (FV : forall i, i < n -> (fval ws' (i * w) w < 2 ^ N.of_nat w)%N /\ forall j, j < w -> N.testbit (fval ws' (i * w) w) (N.of_nat j) = bitat ws' (i * w + j)).
  { intros. apply fval_spec; auto. pose proof (field_in i n w H). lia. }
  assert (Lf : length (firstn n l ++ t) = n) by (rewrite app_length, firstn_length; lia).
  exists t. split; auto. split.
  - unfold fv_rep, fv_resize. cbn [fv_width fv_size fv_words]. fold w. fold ws'. rewrite Lf.
    split; auto. split; auto. split; auto. split; auto. split; [|split].
    + rewrite Forall_app. split; [now apply Forall_firstn'|]. apply Forall_forall. intros x Hx. unfold t in Hx.
      apply in_map_iff in Hx. destruct Hx as (i & <- & Hi). apply in_seq in Hi. apply FV. lia.
    + intros i j Hi Hj. pose proof (field_in i n w Hi). destruct (Nat.lt_ge_cases i (length l)).
      * rewrite app_nth1 by (rewrite firstn_length; lia).
        assert (nth i (firstn n l) 0%N = nth i l 0%N).
        { rewrite <- (firstn_skipn n l) at 2. rewrite app_nth1; auto. rewrite firstn_length; lia. }
        rewrite H1. unfold ws'. rewrite bitat_lresize. destruct (Nat.ltb_spec ((i * w + j) / 64) (fv_word_size n w)).
        -- now apply Hb.
        -- exfalso. pose proof (Nat.mul_div_le (i * w + j) 64). lia.
      * rewrite app_nth2 by (rewrite firstn_length; lia). rewrite firstn_length.
        replace (i - Nat.min n (length l)) with (i - length l) by lia. rewrite Nt by lia. symmetry. apply FV; auto.
    + intros G q Hq. apply andb_prop in G. destruct G as [G Gn]. apply Nat.leb_le in Gn.
      unfold ws'. rewrite bitat_lresize. destruct (q / 64 <? fv_word_size n w); auto. apply Hg; auto.
      pose proof (Nat.mul_le_mono_r _ _ w Gn). lia.
  - intros [G|G].
    + apply nth_ext with (d := 0%N) (d' := 0%N); [now rewrite repeat_length|]. rewrite Lt. intros i Hi. rewrite nth_repeat.
      replace i with (i + length l - length l) by lia. rewrite Nt by lia.
      destruct (FV (i + length l)) as (A & B); [lia|]. apply num_ext with w; auto.
      { apply N.neq_0_lt_0, N.pow_nonzero. lia. }
      intros j Hj. rewrite B by auto. rewrite N.bits_0. unfold ws'. rewrite bitat_lresize.
      destruct (_ <? _); auto. apply Hg; auto. rewrite Nat.mul_add_distr_r. lia.
    + replace (n - length l) with 0 in * by lia. destruct t; simpl in Lt; [reflexivity|lia].
Qed.

Lemma firstn_S_upd : forall A (l : list A) a x, a < length l -> firstn (S a) (upd l a x) = firstn a l ++ [x].
Proof. induction l; intros b x H; simpl in H; [lia|]. destruct b; [reflexivity|]. cbn [upd]. rewrite firstn_cons, IHl by lia. reflexivity. Qed.
Lemma skipn_upd : forall A (l : list A) a k x, a < k -> skipn k (upd l a x) = skipn k l.
Proof. induction l; intros b k x H; [destruct b; reflexivity|]. destruct k; [lia|]. destruct b; [reflexivity|]. cbn [upd skipn]. apply IHl. lia. Qed.

Lemma fv_set_loop : forall x n a v l g, fv_rep v l g -> a + n <= length l -> (x < 2 ^ N.of_nat (fv_width v))%N ->
  exists v', foldM (fun v i => fv_set v i x) (seq a n) v = Ok v' /\ fv_width v' = fv_width v /\
    fv_rep v' (firstn a l ++ repeat x n ++ skipn (a + n) l) g.
Proof.
  induction n; intros a v l g R Ha Hx.
  - exists v. split; auto. split; auto. simpl. rewrite Nat.add_0_r, firstn_skipn. auto.
  - simpl seq. simpl foldM. destruct (fv_set_rep v l g a x R) as (v1 & E1 & W1 & R1); auto; [lia|].
    rewrite E1. cbn [bind]. destruct (IHn (S a) v1 (upd l a x) g R1) as (v2 & E2 & W2 & R2).
    + rewrite upd_length. lia.
    + now rewrite W1.
    + exists v2. split; auto. split; [congruence|].
      replace (firstn a l ++ repeat x (S n) ++ skipn (a + S n) l) with (firstn (S a) (upd l a x) ++ repeat x n ++ skipn (S a + n) (upd l a x)); auto.
      rewrite firstn_S_upd, skipn_upd, <- app_assoc by lia. replace (a + S n) with (S a + n) by lia. reflexivity.
Qed.

Lemma fv_resize_value_rep : forall v l g n x, fv_rep v l g -> (x < 2 ^ N.of_nat (fv_width v))%N ->
  exists v', fv_resize_value v n x = Ok v' /\ fv_width v' = fv_width v /\
    fv_rep v' (firstn n l ++ repeat x (n - length l)) (g && (length l <=? n)).
Proof.
  intros v l g n x R Hx. destruct (fv_resize_any v l g n R) as (t & Lt & R1 & _). unfold fv_resize_value.
  pose proof R as (_ & Hz & _). rewrite Hz.
  assert (Lf : length (firstn n l ++ t) = n) by (rewrite app_length, firstn_length; lia).
  destruct (Nat.le_gt_cases n (length l)).
  - replace (n - length l) with 0 in * by lia. exists (fv_resize v n). split; auto. split; auto.
    destruct t; [auto|simpl in Lt; lia].
  - destruct (fv_set_loop x (n - length l) (length l) _ _ _ R1) as (v' & E & W & R2); auto; [lia|].
    exists v'. split; auto. split; auto. 
    replace (firstn n l ++ repeat x (n - length l)) with (firstn (length l) (firstn n l ++ t) ++ repeat x (n - length l) ++ skipn (length l + (n - length l)) (firstn n l ++ t)); auto.
    rewrite (firstn_all2 l) by lia. rewrite skipn_all2 by (rewrite app_length; lia). rewrite app_nil_r.
    rewrite firstn_app, Nat.sub_diag, firstn_all, firstn_O, app_nil_r. reflexivity.
Qed.

Lemma fv_assign_rep : forall v l g n x, fv_rep v l g -> (x < 2 ^ N.of_nat (fv_width v))%N ->
  exists v', fv_assign v n x = Ok v' /\ fv_width v' = fv_width v /\ fv_rep v' (repeat x n) (g && (length l <=? n)).
Proof.
  intros v l g n x R Hx. destruct (fv_resize_any v l g n R) as (t & Lt & R1 & _). unfold fv_assign.
  assert (Lf : length (firstn n l ++ t) = n) by (rewrite app_length, firstn_length; lia).
  destruct (fv_set_loop x n 0 _ _ _ R1) as (v' & E & W & R2); auto; [lia|].
  exists v'. split; auto. split; auto. simpl in R2. rewrite skipn_all2, app_nil_r in R2 by lia. auto.
Qed.

Lemma fv_push_rep : forall v l g x, fv_rep v l g -> (x < 2 ^ N.of_nat (fv_width v))%N ->
  exists v', fv_push_back v x = Ok v' /\ fv_width v' = fv_width v /\ fv_rep v' (l ++ [x]) g.
Proof.
  intros v l g x R Hx. pose proof R as (_ & Hz & _). unfold fv_push_back.
  destruct (fv_resize_any v l g (fv_size v + 1) R) as (t & Lt & R1 & _).
  rewrite Hz in *. replace (length l + 1 - length l) with 1 in Lt by lia. destruct t as [|t0 [|]]; simpl in Lt; try lia.
  rewrite (firstn_all2 l) in R1 by lia. rewrite (proj2 (Nat.leb_le _ _)), andb_true_r in R1 by lia.
  replace (fv_size (fv_resize v (length l + 1)) - 1) with (length l) by (simpl; lia).
  destruct (fv_set_rep _ _ _ (length l) x R1) as (v' & E & W & R2); auto; [rewrite app_length; simpl; lia|].
  exists v'. split; auto. split; auto. rewrite upd_as_app in R2 by (rewrite app_length; simpl; lia).
  rewrite firstn_app, Nat.sub_diag, firstn_all, firstn_O, app_nil_r in R2.
  rewrite skipn_all2 in R2 by (rewrite app_length; simpl; lia). auto.
Qed.

Lemma fv_make_rep : forall w, 1 <= w <= 63 -> fv_rep (fv_make w) [] true.
Proof.
  intros. unfold fv_rep, fv_make. cbn [fv_width fv_size fv_words length]. split; auto. split; auto. split; auto.
  split; [constructor|]. split; [constructor|]. split; [intros; lia|]. intros. unfold bitat. destruct (q / 64); apply N.bits_0.
Qed.

Lemma fv_step_rep : forall v l g o l' g', fv_rep v l g -> op_fits (fv_width v) o -> nums_step (l, g) o = Some (l', g') ->
  match o with FVResize n => length l < n -> g = true | _ => True end ->
  exists v', fv_step v o = Ok v' /\ fv_width v' = fv_width v /\ fv_rep v' l' g'.
Proof.
  intros v l g o l' g' R F E P. destruct o; cbn [nums_step op_fits fv_step] in *.
  - injection E as <- <-. destruct (fv_resize_any v l g n R) as (t & Lt & R1 & T). eexists. split; [reflexivity|]. split; [reflexivity|].
    rewrite T in R1; auto. destruct (Nat.le_gt_cases n (length l)); auto.
  - injection E as <- <-. now apply fv_resize_value_rep.
  - injection E as <- <-. now apply fv_assign_rep.
  - injection E as <- <-. now apply fv_push_rep.
  - destruct (Nat.ltb_spec i (length l)); [|discriminate]. injection E as <- <-. rewrite <- upd_as_app by auto. now apply fv_set_rep.
Qed.

Lemma fv_run_rep : forall ops v l g l' g', fv_rep v l g -> Forall (op_fits (fv_width v)) ops -> nums_run (l, g) ops = Some (l', g') ->
  plain_growth_first (l, g) ops ->
  exists v', fv_run v ops = Ok v' /\ fv_width v' = fv_width v /\ fv_rep v' l' g'.
Proof.
  induction ops as [|o ops IH]; intros v l g l' g' R F E P.
  - injection E as <- <-. exists v. auto.
  - cbn [nums_run plain_growth_first] in *. destruct (nums_step (l, g) o) as [[l1 g1]|] eqn:E1; [|discriminate].
    inversion F as [|? ? F1 F2]. destruct P as (P1 & P2).
    destruct (fv_step_rep v l g o l1 g1 R F1 E1) as (v1 & S1 & W1 & R1).
    { destruct o; auto. }
    destruct (IH v1 l1 g1 l' g' R1) as (v2 & S2 & W2 & R2); auto; [now rewrite W1|].
    exists v2. unfold fv_run in *. cbn [foldM]. rewrite S1. cbn [bind]. split; auto. split; [congruence|auto].
Qed.

(** ** Statements *)
Lemma fv_history : forall w ops l g, 1 <= w <= 63 -> Forall (op_fits w) ops -> nums_run ([], true) ops = Some (l, g) ->
  plain_growth_first ([], true) ops ->
  exists v, fv_run (fv_make w) ops = Ok v /\ fv_size v = length l /\
    (forall i x, nth_error l i = Some x -> fv_get v i = Ok x) /\
    (forall i, fv_at v i = match nth_error l i with Some x => Ok x | None => Throw end).
Proof.
  intros w ops l g Hw F E P. destruct (fv_run_rep ops (fv_make w) [] true l g (fv_make_rep w Hw) F E P) as (v & S & W & R).
  pose proof R as (_ & Hz & _). exists v. split; auto. split; auto.
  assert (G : forall i x, nth_error l i = Some x -> fv_get v i = Ok x).
  { intros i x Hi. rewrite (fv_get_rep v l g i R); [f_equal; now apply nth_error_nth|]. apply nth_error_Some. congruence. }
  split; auto. intros i. unfold fv_at. rewrite Hz. destruct (Nat.leb_spec (length l) i).
  - now rewrite (proj2 (nth_error_None l i)).
  - destruct (nth_error l i) eqn:Ei; [auto|]. apply nth_error_None in Ei. lia.
Qed.

(** any state in which the storage has the size resize gives it *)
Lemma fv_write_independent : forall w n ws i x, 1 <= w <= 63 -> length ws = fv_word_size n w -> Forall (fun y => (y < 2 ^ 64)%N) ws ->
  i < n -> (x < 2 ^ N.of_nat w)%N ->
  exists v', fv_set (FV w n ws) i x = Ok v' /\ fv_size v' = n /\ length (fv_words v') = length ws /\
   fv_get v' i = Ok x /\ forall j, j < n -> j <> i -> exists y, fv_get (FV w n ws) j = Ok y /\ fv_get v' j = Ok y.
Proof.
  intros w n ws i x Hw L Hs Hi Hx. 
  pose proof (fv_word_size_ge n w). pose proof (field_in i n w Hi).
  destruct (bits_write_spec ws (i * w) w x) as (ws' & E & L' & S' & B); auto; [lia|].
  exists (FV w n ws'). unfold fv_set, fv_get. cbn [fv_width fv_size fv_words]. rewrite E. split; auto. split; auto. split; auto. split.
  - destruct (bits_read_spec ws' (i * w) w) as (y & Ey & Hy & By); auto; [lia|]. rewrite Ey. f_equal.
    apply num_ext with w; auto. intros j Hj. rewrite By, B by auto.
    rewrite (proj2 (Nat.leb_le _ _)), (proj2 (Nat.ltb_lt _ _)) by lia. cbn [andb]. do 2 f_equal. lia.
  - intros j Hj Hne. pose proof (field_in j n w Hj).
    destruct (bits_read_spec ws' (j * w) w) as (y & Ey & Hy & By); auto; [lia|].
    destruct (bits_read_spec ws (j * w) w) as (z & Ez & Hz & Bz); auto; [lia|]. exists y. rewrite Ey. split; auto.
    rewrite Ez. f_equal. apply num_ext with w; auto. intros t Ht. rewrite By, Bz, B by auto.
    destruct (Nat.lt_ge_cases j i).
    + pose proof (field_in j i w H2). rewrite (proj2 (Nat.leb_gt _ _)) by lia. auto.
    + pose proof (field_in i j w). rewrite (proj2 (Nat.ltb_ge _ _)) by lia. now rewrite andb_false_r.
Qed.

Lemma max_element_le : forall l a x, In x l -> (x <= fold_left N.max l a)%N.
Proof.
  assert (M : forall l a, (a <= fold_left N.max l a)%N).
  { induction l; intros; simpl; [lia|]. apply N.le_trans with (N.max a0 a); [lia|apply IHl]. }
  induction l as [|y l IH]; intros b x H; [destruct H|]. destruct H as [->|H]; simpl; auto.
  apply N.le_trans with (N.max b x); [lia|apply M].
Qed.

Lemma max_element_bound : forall l a b, (a < b)%N -> Forall (fun x => (x < b)%N) l -> (fold_left N.max l a < b)%N.
Proof. induction l; intros a0 b H F; simpl; auto. inversion F. apply IHl; auto. lia. Qed.

Lemma max_element_in : forall l a, fold_left N.max l a = a \/ In (fold_left N.max l a) l.
Proof.
  induction l; intros; simpl; auto. destruct (IHl (N.max a0 a)) as [E|E]; auto. rewrite E. destruct (N.max_spec a0 a) as [[_ ->]|[_ ->]]; auto.
Qed.

Lemma fv_pushes : forall ops v l, fv_rep v l true -> Forall (fun x => (x < 2 ^ N.of_nat (fv_width v))%N) ops ->
  exists v', foldM fv_push_back ops v = Ok v' /\ fv_width v' = fv_width v /\ fv_rep v' (l ++ ops) true.
Proof.
  induction ops; intros v l R F.
  - exists v. rewrite app_nil_r. auto.
  - inversion F as [|? ? F1 F2]. destruct (fv_push_rep v l true a R F1) as (v1 & E1 & W1 & R1).
    destruct (IHops v1 _ R1) as (v2 & E2 & W2 & R2); [now rewrite W1|]. exists v2. cbn [foldM]. rewrite E1. cbn [bind].
    split; auto. split; [congruence|]. now rewrite <- app_assoc in R2.
Qed.

Lemma fv_of_list_ok : forall l, Forall (fun x => (x < 2 ^ 63)%N) l -> l <> [] ->
  exists v, fv_of_list l = Ok v /\ fv_rep v l true /\ fv_width v = bits_needed (max_element l).
Proof.
  intros l F Hn. unfold fv_of_list, minimal_word_size. destruct l as [|x0 r] eqn:El; [congruence|]. rewrite <- El in *.
  assert (Hm : (max_element l < 2 ^ 63)%N) by (apply max_element_bound; auto; vm_compute; reflexivity).
  rewrite SizeFitsInBits_ok by auto. cbn [bind].
  set (w := bits_needed (max_element l)).
  assert (Hw : 1 <= w <= 63).
  { split; [unfold w, bits_needed; destruct (N.eqb _ _); lia|]. apply bits_needed_le; [auto|lia]. }
  destruct (fv_pushes l (fv_make w) [] (fv_make_rep w Hw)) as (v & E & W & R).
  { apply Forall_forall. intros x Hx. cbn [fv_make fv_width]. apply N.le_lt_trans with (max_element l); [now apply max_element_le|].
    apply bits_needed_spec. }
  exists v. auto.
Qed.

Lemma fv_of_list_stmt : forall l, Forall (fun x => (x < 2 ^ 63)%N) l ->
  exists v, fv_of_list l = Ok v /\ fv_size v = length l /\ (forall i x, nth_error l i = Some x -> fv_get v i = Ok x) /\
  (l <> [] -> 1 <= fv_width v /\ Forall (fun x => (x < 2 ^ N.of_nat (fv_width v))%N) l /\
     forall k, 1 <= k -> Forall (fun x => (x < 2 ^ N.of_nat k)%N) l -> fv_width v <= k).
Proof.
  intros l F. destruct (list_eq_dec N.eq_dec l []) as [->|Hn].
  { exists (fv_make 0). split; auto. split; auto. split; [intros [|i] x; discriminate|congruence]. }
  destruct (fv_of_list_ok l F Hn) as (v & E & R & W). exists v. pose proof R as (Hw & Hz & Hl & Hs & Hf & _).
  split; auto. split; auto. split.
  - intros i x Hi. rewrite (fv_get_rep v l true i R); [f_equal; now apply nth_error_nth|]. apply nth_error_Some. congruence.
  - intros _. split; [lia|]. split; auto. intros k Hk Fk. rewrite W. apply bits_needed_le; auto.
    apply max_element_bound; auto. apply N.neq_0_lt_0, N.pow_nonzero. lia.
Qed.

Lemma fv_of_list_UB : forall l x, In x l -> (2 ^ 63 <= x)%N -> fv_of_list l = UB.
Proof.
  intros l x Hin Hx. unfold fv_of_list, minimal_word_size. destruct l as [|y r] eqn:E; [destruct Hin|]. rewrite <- E in *.
  rewrite SizeFitsInBits_UB; auto. apply N.le_trans with x; auto. now apply max_element_le.
Qed.

Lemma bits_read_no_throw : forall ws a o w, bits_read ws a o w <> Throw.
Proof.
  intros. unfold bits_read, WidthMask, lget, shl64, shr64.
  destruct (N.of_nat w <? 64)%N; cbn [bind]; try discriminate.
  destruct (nth_error ws a); cbn [bind]; try discriminate.
  destruct (N.of_nat o <? 64)%N; cbn [bind]; try discriminate.
  destruct (w + o <=? 64); cbn [bind]; try discriminate.
  destruct (nth_error ws (a + 1)); cbn [bind]; try discriminate.
  destruct (N.of_nat (64 - o) <? 64)%N; cbn [bind]; discriminate.
Qed.

Lemma fv_front_back : forall w ops l g, 1 <= w <= 63 -> Forall (op_fits w) ops -> nums_run ([], true) ops = Some (l, g) ->
  plain_growth_first ([], true) ops ->
  exists v, fv_run (fv_make w) ops = Ok v /\ forall x, (hd_error l = Some x -> fv_front v = Ok x) /\ (hd_error (rev l) = Some x -> fv_back v = Ok x).
Proof.
  intros w ops l g Hw F E P. destruct (fv_history w ops l g Hw F E P) as (v & S & A & B & _). exists v. split; auto. intros x. split; intros X.
  - apply B. destruct l; [discriminate|exact X].
  - assert (El : l = rev (rev l)) by now rewrite rev_involutive. destruct (rev l) as [|y r]; [discriminate|]. cbn in X. injection X as ->. cbn [rev] in El.
    unfold fv_back. rewrite A, El, app_length. cbn [length]. rewrite Nat.add_1_r, Nat.sub_1_r. cbn [Nat.eqb Nat.pred]. apply B. rewrite El, nth_error_app2 by lia. now rewrite Nat.sub_diag.
Qed.
