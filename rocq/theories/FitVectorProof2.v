(** FitVector as a tape of bits: every history, every value *)
From Coq Require Import List NArith ZArith Lia Bool Arith.
From Verif Require Import Base Spec Spec7 BitUtilModel BitUtilProof BitUtilProof2 CalcModel CalcProof BitVectorProof FitVectorModel FitVectorProof.
Import ListNotations.
Local Open Scope nat_scope.
Ltac Zify.zify_post_hook ::= idtac.

Lemma word_end_ge : forall p, p <= word_end p.
Proof. intros. unfold word_end. pose proof (Nat.div_mod (p + 63) 64). pose proof (Nat.mod_upper_bound (p + 63) 64). lia. Qed.
Lemma word_end_at : forall k o, 1 <= o <= 64 -> word_end (64 * k + o) = 64 * (k + 1).
Proof.
  intros. unfold word_end. f_equal. symmetry. apply Nat.div_unique with (o - 1); lia.
Qed.
Lemma word_end_size : forall n w, 64 * fv_word_size n w = word_end (n * w).
Proof.
  intros. unfold fv_word_size. destruct (Nat.eqb_spec n 0) as [->|]; [reflexivity|].
  destruct (Nat.eqb_spec w 0) as [->|]; [rewrite (Nat.mul_comm n 0); reflexivity|].
  cbn [orb]. assert (1 <= n * w) by (pose proof (Nat.mul_le_mono 1 n 1 w); lia). unfold word_end. f_equal.
  pose proof (Nat.div_mod (n * w - 1) 64). pose proof (Nat.mod_upper_bound (n * w - 1) 64).
  apply Nat.div_unique with ((n * w - 1) mod 64); lia.
Qed.

Lemma bits_write_tape : forall ws p w x, small ws -> 1 <= w <= 63 -> p + w <= 64 * length ws -> (x < 2 ^ 64)%N ->
  exists ws', bits_write ws (p / 64) (p mod 64) w x = Ok ws' /\ length ws' = length ws /\ small ws' /\
  forall q, bitat ws' q = tape_store w p x (bitat ws) q.
Proof.
  intros ws p w x Hs Hw Hp Hx64. destruct (pos_split p) as (k & o & Ep & Ho & -> & ->).
  unfold bits_write. rewrite WidthMask_ones by lia. cbn [bind].
  rewrite (lget_nth _ ws k 0%N) by lia. cbn [bind]. rewrite !shl64_Ok by lia. cbn [bind].
  rewrite lset_Ok by lia. cbn [bind].
  set (m := N.ones (N.of_nat w)). assert (Hm : (m < 2 ^ 64)%N) by (apply ones_lt64; lia).
  set (w1 := N.lor (N.land (nth k ws 0%N) (wnot (wshl m (N.of_nat o)))) (wshl x (N.of_nat o))).
  assert (S1 : (w1 < 2 ^ 64)%N) by (apply lor_lt64; [apply land_small, small_nth; auto|apply wshl_small]).
  assert (B1 : forall t, t < 64 -> N.testbit w1 (N.of_nat t) =
     if t <? o then N.testbit (nth k ws 0%N) (N.of_nat t) else if t <? o + w then N.testbit x (N.of_nat (t - o))
     else N.testbit (nth k ws 0%N) (N.of_nat t) || N.testbit x (N.of_nat (t - o))).
  { intros t Ht. subst w1. rewrite N.lor_spec, N.land_spec, wnot_spec, !wshl_spec by lia. unfold m. rewrite ones_bit.
    rewrite (proj2 (N.ltb_lt (N.of_nat t) 64)) by lia. cbn [andb].
    destruct (Nat.ltb_spec t o).
    - rewrite (proj2 (N.leb_gt (N.of_nat o) (N.of_nat t))) by lia. cbn [andb negb]. now rewrite andb_true_r, orb_false_r.
    - rewrite (proj2 (N.leb_le (N.of_nat o) (N.of_nat t))) by lia. cbn [andb].
      replace (N.of_nat t - N.of_nat o)%N with (N.of_nat (t - o)) by lia.
      destruct (Nat.ltb_spec t (o + w)).
      + rewrite (proj2 (N.ltb_lt (N.of_nat (t - o)) (N.of_nat w))) by lia. cbn [negb]. rewrite andb_false_r. auto.
      + rewrite (proj2 (N.ltb_ge (N.of_nat (t - o)) (N.of_nat w))) by lia. cbn [negb]. rewrite andb_true_r. auto. }
  destruct (Nat.ltb_spec 64 (w + o)).
  - rewrite (lget_nth _ _ (k + 1) 0%N) by (rewrite upd_length; lia). cbn [bind]. rewrite !shr64_Ok by lia. cbn [bind].
    rewrite lset_Ok by (rewrite upd_length; lia).
    rewrite nth_upd. destruct (Nat.eqb_spec (k + 1) k); [lia|]. cbn [andb].
    set (w2 := N.lor (N.land (nth (k + 1) ws 0%N) (wnot (N.shiftr m (N.of_nat (64 - o))))) (N.shiftr x (N.of_nat (64 - o)))).
    assert (S2 : (w2 < 2 ^ 64)%N) by (apply lor_lt64; [apply land_small, small_nth; auto|apply shiftr_lt64; auto]).
    eexists. split; [reflexivity|]. rewrite !upd_length. split; auto. split; [apply small_upd; auto; apply small_upd; auto|].
    assert (We : word_end (p + w) = 64 * (k + 2)).
    { replace (p + w) with (64 * (k + 1) + (w + o - 64)) by lia. rewrite word_end_at by lia. lia. }
    intros q. rewrite !bitat_upd by (rewrite ?upd_length; lia). unfold tape_store. rewrite We.
    destruct (pos_split q) as (a & t & Eq & Ht & -> & ->).
    destruct (Nat.eqb_spec a (k + 1)); [|destruct (Nat.eqb_spec a k)].
    + subst a. subst w2. rewrite N.lor_spec, N.land_spec, wnot_spec, !N.shiftr_spec' by lia. unfold m. rewrite ones_bit.
      replace (N.of_nat t + N.of_nat (64 - o))%N with (N.of_nat (q - p)) by lia.
      replace (bitat ws q) with (N.testbit (nth (k + 1) ws 0%N) (N.of_nat t)) by (rewrite Eq, bitat_at; auto).
      rewrite (proj2 (Nat.ltb_ge q p)) by lia. rewrite (proj2 (Nat.ltb_lt q (64 * (k + 2)))) by lia. destruct (Nat.ltb_spec q (p + w)).
      * rewrite (proj2 (N.ltb_lt (N.of_nat (q - p)) (N.of_nat w))) by lia. cbn [negb]. now rewrite andb_false_r.
      * rewrite (proj2 (N.ltb_ge (N.of_nat (q - p)) (N.of_nat w))) by lia. cbn [negb]. now rewrite andb_true_r.
    + subst a. rewrite B1 by auto. replace (bitat ws q) with (N.testbit (nth k ws 0%N) (N.of_nat t)) by (rewrite Eq, bitat_at; auto).
      replace (t - o) with (q - p) by lia. rewrite (proj2 (Nat.ltb_lt q (64 * (k + 2)))) by lia.
      destruct (Nat.ltb_spec t o), (Nat.ltb_spec q p), (Nat.ltb_spec t (o + w)), (Nat.ltb_spec q (p + w)); auto; lia.
    + destruct (Nat.ltb_spec q p), (Nat.ltb_spec q (p + w)), (Nat.ltb_spec q (64 * (k + 2))); auto; lia.
  - eexists. split; [reflexivity|]. rewrite !upd_length. split; auto. split; [apply small_upd; auto|].
    assert (We : word_end (p + w) = 64 * (k + 1)).
    { replace (p + w) with (64 * k + (w + o)) by lia. rewrite word_end_at by lia. lia. }
    intros q. rewrite !bitat_upd by lia. unfold tape_store. rewrite We. destruct (pos_split q) as (a & t & Eq & Ht & -> & ->).
    destruct (Nat.eqb_spec a k).
    + subst a. rewrite B1 by auto. replace (bitat ws q) with (N.testbit (nth k ws 0%N) (N.of_nat t)) by (rewrite Eq, bitat_at; auto).
      replace (t - o) with (q - p) by lia. rewrite (proj2 (Nat.ltb_lt q (64 * (k + 1)))) by lia.
      destruct (Nat.ltb_spec t o), (Nat.ltb_spec q p), (Nat.ltb_spec t (o + w)), (Nat.ltb_spec q (p + w)); auto; lia.
    + destruct (Nat.ltb_spec q p), (Nat.ltb_spec q (p + w)), (Nat.ltb_spec q (64 * (k + 1))); auto; lia.
Qed.

(** ** Representation *)
Definition fv_tape (w : nat) (v : fitvec) (n : nat) (T : nat -> bool) : Prop :=
  fv_width v = w /\ fv_size v = n /\ length (fv_words v) = fv_word_size n w /\ small (fv_words v) /\
  forall q, bitat (fv_words v) q = T q.

Lemma tape_store_ext : forall w p x T T' , (forall q, T q = T' q) -> forall q, tape_store w p x T q = tape_store w p x T' q.
Proof. intros. unfold tape_store. rewrite H. reflexivity. Qed.

Lemma fv_set_tape : forall w v n T i x, 1 <= w <= 63 -> fv_tape w v n T -> i < n -> (x < 2 ^ 64)%N ->
  exists v', fv_set v i x = Ok v' /\ fv_tape w v' n (tape_store w (i * w) x T).
Proof.
  intros w v n T i x Hw (Ew & En & L & S & B) Hi Hx. unfold fv_set. rewrite Ew.
  pose proof (fv_word_size_ge n w). pose proof (field_in i n w Hi).
  destruct (bits_write_tape (fv_words v) (i * w) w x) as (ws' & E & L' & S' & B'); auto; [lia|].
  rewrite E. cbn [bind]. eexists. split; [reflexivity|]. unfold fv_tape. cbn [fv_width fv_size fv_words].
  split; auto. split; auto. split; [congruence|]. split; auto. intros q. rewrite B'. now apply tape_store_ext.
Qed.

Lemma fv_fill_tape : forall w n x is_ v T, 1 <= w <= 63 -> (x < 2 ^ 64)%N -> Forall (fun i => i < n) is_ -> fv_tape w v n T ->
  exists v', foldM (fun v i => fv_set v i x) is_ v = Ok v' /\ fv_tape w v' n (fold_left (fun T i => tape_store w (i * w) x T) is_ T).
Proof.
  intros w n x is_ v T Hw Hx. revert v T. induction is_ as [|i l IH]; intros v T F R.
  - exists v. split; auto.
  - inversion F; subst. destruct (fv_set_tape w v n T i x) as (v1 & E1 & R1); auto.
    cbn [foldM fold_left]. rewrite E1. cbn [bind]. apply IH; auto.
Qed.

Lemma fv_resize_tape : forall w v n T m, fv_tape w v n T -> fv_tape w (fv_resize v m) m (tape_cut (m * w) T).
Proof.
  intros w v n T m (Ew & En & L & S & B). unfold fv_tape, fv_resize. cbn [fv_width fv_size fv_words]. rewrite Ew.
  split; auto. split; auto. split; [apply lresize_length|]. split; [now apply small_lresize|].
  intros q. rewrite bitat_lresize, B. unfold tape_cut. rewrite <- word_end_size.
  pose proof (Nat.div_mod q 64). pose proof (Nat.mod_upper_bound q 64).
  destruct (Nat.ltb_spec (q / 64) (fv_word_size m w)), (Nat.ltb_spec q (64 * fv_word_size m w)); auto; lia.
Qed.

Lemma seq_lt : forall a n, Forall (fun i => i < n) (seq a (n - a)).
Proof. intros. apply Forall_forall. intros i Hi. apply in_seq in Hi. lia. Qed.

Lemma fv_step_tape : forall w o v n T st, 1 <= w <= 63 -> op_word o -> fv_tape w v n T -> tape_step w (n, T) o = Some st ->
  exists v', fv_step v o = Ok v' /\ fv_tape w v' (fst st) (snd st).
Proof.
  intros w o v n T st Hw Ho R E. pose proof R as (Ew & En & _).
  destruct o as [m|m x|m x|x|i x]; cbn [tape_step fv_step op_word op_fits] in *.
  - injection E as <-. eexists. split; [reflexivity|]. eapply fv_resize_tape; eauto.
  - injection E as <-. unfold fv_resize_value, tape_fill. rewrite En. apply fv_fill_tape; auto; [apply seq_lt|eapply fv_resize_tape; eauto].
  - injection E as <-. unfold fv_assign, tape_fill. pose proof (seq_lt 0 m) as Q. rewrite Nat.sub_0_r in *. apply fv_fill_tape; auto; eapply fv_resize_tape; eauto.
  - injection E as <-. unfold fv_push_back. cbn [fst snd]. rewrite En. pose proof (fv_resize_tape w v n T (n + 1) R) as R1.
    replace (fv_size (fv_resize v (n + 1)) - 1) with n by (cbn; lia).
    apply fv_set_tape; auto. lia.
  - destruct (Nat.ltb_spec i n); [|discriminate]. injection E as <-. apply fv_set_tape; auto.
Qed.

Lemma fv_run_tape : forall w ops v n T st, 1 <= w <= 63 -> Forall op_word ops -> fv_tape w v n T -> tape_run w (n, T) ops = Some st ->
  exists v', fv_run v ops = Ok v' /\ fv_tape w v' (fst st) (snd st).
Proof.
  intros w ops. induction ops as [|o ops IH]; intros v n T st Hw F R E.
  - injection E as <-. exists v. split; auto.
  - cbn [tape_run] in E. inversion F; subst. destruct (tape_step w (n, T) o) as [[n1 T1]|] eqn:E1; [|discriminate].
    destruct (fv_step_tape w o v n T (n1, T1)) as (v1 & S1 & R1); auto.
    unfold fv_run in *. cbn [foldM]. rewrite S1. cbn [bind]. now apply (IH v1 n1 T1).
Qed.

Lemma tape_num_lt : forall w T p, (tape_num T p w < 2 ^ N.of_nat w)%N.
Proof.
  induction w; intros T p; cbn [tape_num]; [reflexivity|]. specialize (IHw T (S p)).
  rewrite Nnat.Nat2N.inj_succ, N.pow_succ_r'. destruct (T p); lia.
Qed.
Lemma tape_num_bit : forall w T p j, j < w -> N.testbit (tape_num T p w) (N.of_nat j) = T (p + j).
Proof.
  induction w; intros T p j H; [lia|]. cbn [tape_num]. destruct j.
  - rewrite Nat.add_0_r. destruct (T p).
    + rewrite N.add_comm. apply N.testbit_odd_0.
    + rewrite N.add_0_l. apply N.testbit_even_0.
  - rewrite Nnat.Nat2N.inj_succ. replace (p + S j) with (S p + j) by lia. rewrite <- (IHw T (S p) j) by lia. destruct (T p).
    + rewrite N.add_comm. apply N.testbit_odd_succ. lia.
    + rewrite N.add_0_l. apply N.testbit_even_succ. lia.
Qed.

Lemma fv_get_tape : forall w v n T i, 1 <= w <= 63 -> fv_tape w v n T -> i < n -> fv_get v i = Ok (tape_num T (i * w) w).
Proof.
  intros w v n T i Hw (Ew & En & L & S & B) Hi. unfold fv_get. rewrite Ew.
  pose proof (fv_word_size_ge n w). pose proof (field_in i n w Hi).
  destruct (bits_read_spec (fv_words v) (i * w) w) as (y & E & Hy & By); auto; [lia|].
  rewrite E. f_equal. apply num_ext with w; auto; [apply tape_num_lt|].
  intros j Hj. rewrite By, tape_num_bit, B by auto. reflexivity.
Qed.

Lemma fv_tape_history : forall w ops n T, 1 <= w <= 63 -> Forall op_word ops -> tape_run w (0, fun _ => false) ops = Some (n, T) ->
  exists v, fv_run (fv_make w) ops = Ok v /\ fv_size v = n /\ forall i, i < n -> fv_get v i = Ok (tape_num T (i * w) w).
Proof.
  intros w ops n T Hw F E. destruct (fv_run_tape w ops (fv_make w) 0 (fun _ => false) (n, T)) as (v & S & R); auto.
  - unfold fv_tape. cbn. split; auto. split; auto. split; auto. split; [constructor|]. intros q. unfold bitat. cbn [fv_words]. destruct (q / 64); apply N.bits_0.
  - exists v. split; auto. pose proof R as (_ & En & _). split; auto. intros i Hi. now apply (fv_get_tape w v n T).
Qed.

(** ** What a single write does to the other elements *)
Lemma fv_wide_write : forall w n ws i x, 1 <= w <= 63 -> length ws = fv_word_size n w -> Forall (fun y => (y < 2 ^ 64)%N) ws ->
  i < n -> (x < 2 ^ 64)%N ->
  exists v', fv_set (FV w n ws) i x = Ok v' /\ fv_size v' = n /\ length (fv_words v') = length ws /\
   fv_get v' i = Ok (x mod 2 ^ N.of_nat w)%N /\
   forall j, j < n -> j <> i -> exists y, fv_get (FV w n ws) j = Ok y /\
     fv_get v' j = Ok (if j <? i then y else
       N.lor y (N.shiftr (x mod 2 ^ N.of_nat (word_end (i * w + w) - i * w)%nat) (N.of_nat ((j - i) * w)) mod 2 ^ N.of_nat w)%N).
Proof.
  intros w n ws i x Hw L Hs Hi Hx.
  assert (R : fv_tape w (FV w n ws) n (bitat ws)) by (unfold fv_tape; cbn; auto 6).
  destruct (fv_set_tape w _ n _ i x Hw R Hi Hx) as (v' & E & R'). pose proof R' as (_ & En & L' & _).
  exists v'. split; auto. split; auto. split; [congruence|].
  assert (P : forall j, (0 < 2 ^ N.of_nat j)%N) by (intros; apply N.neq_0_lt_0, N.pow_nonzero; lia).
  assert (MB : forall a k t, N.testbit (a mod 2 ^ N.of_nat k) (N.of_nat t) = (t <? k) && N.testbit a (N.of_nat t)).
  { intros. destruct (Nat.ltb_spec t k); cbn [andb]; [apply N.mod_pow2_bits_low|apply N.mod_pow2_bits_high]; lia. }
  split.
  - rewrite (fv_get_tape w v' n _ i Hw R' Hi). f_equal. apply num_ext with w; [apply tape_num_lt|apply N.mod_upper_bound; specialize (P w); lia|].
    intros j Hj. rewrite tape_num_bit, MB by auto. rewrite (proj2 (Nat.ltb_lt j w)) by lia. unfold tape_store.
    rewrite (proj2 (Nat.ltb_ge _ _)), (proj2 (Nat.ltb_lt (i * w + j) _)) by lia. cbn [andb]. do 2 f_equal. lia.
  - intros j Hj Hne. eexists. split; [apply (fv_get_tape w _ n _ j Hw R Hj)|]. rewrite (fv_get_tape w v' n _ j Hw R' Hj). f_equal.
    pose proof (word_end_ge (i * w + w)).
    destruct (Nat.ltb_spec j i).
    + apply num_ext with w; [apply tape_num_lt..|]. intros t Ht. rewrite !tape_num_bit by auto. unfold tape_store.
      pose proof (field_in j i w H0). rewrite (proj2 (Nat.ltb_lt _ _)) by lia. reflexivity.
    + assert (Hij : i < j) by lia. pose proof (field_in i j w Hij). apply num_ext with w; [apply tape_num_lt| |].
      * apply lt_pow2_bits. intros t Ht. rewrite N.lor_spec. rewrite (testbit_high _ (N.of_nat w)) by (auto using tape_num_lt).
        cbn [fv_words orb]. apply (N.mod_pow2_bits_high _ (N.of_nat w)); auto.
      * intros t Ht. rewrite N.lor_spec, !tape_num_bit, MB by auto. rewrite (proj2 (Nat.ltb_lt t w)) by lia. cbn [andb].
        rewrite N.shiftr_spec', <- Nnat.Nat2N.inj_add, MB. unfold tape_store.
        assert (Em : (j - i) * w = j * w - i * w) by apply Nat.mul_sub_distr_r. rewrite Em.
        rewrite (proj2 (Nat.ltb_ge (j * w + t) (i * w))), (proj2 (Nat.ltb_ge (j * w + t) (i * w + w))) by lia.
        replace (t + (j * w - i * w)) with (j * w + t - i * w) by lia.
        destruct (Nat.ltb_spec (j * w + t) (word_end (i * w + w))), (Nat.ltb_spec (j * w + t - i * w) (word_end (i * w + w) - i * w)); try lia; cbn [andb]; auto using orb_false_r.
Qed.

(** ** What resize brings back *)
Lemma fv_regrow : forall w n ws m k j, 1 <= w <= 63 -> length ws = fv_word_size n w -> Forall (fun y => (y < 2 ^ 64)%N) ws -> m <= n -> m <= j < n -> j < k ->
  exists y, fv_get (FV w n ws) j = Ok y /\
    fv_get (fv_resize (fv_resize (FV w n ws) m) k) j = Ok (y mod 2 ^ N.of_nat (word_end (m * w) - j * w))%N.
Proof.
  intros w n ws m k j Hw L Hs Hm Hj Hk.
  assert (R : fv_tape w (FV w n ws) n (bitat ws)) by (unfold fv_tape; cbn; auto 6).
  pose proof (fv_resize_tape _ _ _ _ k (fv_resize_tape _ _ _ _ m R)) as R'.
  eexists. split; [apply (fv_get_tape w _ n _ j Hw R); lia|]. rewrite (fv_get_tape w _ k _ j Hw R' Hk). f_equal.
  assert (J : forall t, t < w -> j * w + t < word_end (k * w)).
  { intros. pose proof (word_end_ge (k * w)). pose proof (field_in j k w Hk). lia. }
  apply num_ext with w; [apply tape_num_lt| |].
  - eapply N.le_lt_trans; [apply N.mod_le, N.pow_nonzero; lia|apply tape_num_lt].
  - intros t Ht. rewrite tape_num_bit by auto. unfold tape_cut. rewrite (proj2 (Nat.ltb_lt _ _) (J t Ht)).
    destruct (Nat.ltb_spec (j * w + t) (word_end (m * w))).
    + rewrite N.mod_pow2_bits_low by lia. now rewrite tape_num_bit.
    + rewrite N.mod_pow2_bits_high by lia. reflexivity.
Qed.

(** ** Width 0 *)
Lemma fv_step_0 : forall v o v', fv_width v = 0 -> fv_words v = [] -> fv_step v o = Ok v' -> fv_width v' = 0 /\ fv_words v' = [].
Proof.
  assert (SU : forall v i x, fv_width v = 0 -> fv_words v = [] -> fv_set v i x = UB).
  { intros v i x W S. unfold fv_set, bits_write. rewrite W, S, Nat.mul_0_r. reflexivity. }
  assert (RZ : forall v n, fv_width v = 0 -> fv_words v = [] -> fv_width (fv_resize v n) = 0 /\ fv_words (fv_resize v n) = []).
  { intros v n W S. unfold fv_resize, fv_word_size. cbn [fv_width fv_words]. rewrite W, S, orb_true_r. split; reflexivity. }
  assert (FU : forall x l v v', fv_width v = 0 -> fv_words v = [] -> foldM (fun v i => fv_set v i x) l v = Ok v' -> v' = v).
  { intros x l v v' W S E. destruct l; [injection E as <-; reflexivity|]. cbn [foldM] in E. rewrite SU in E by auto. discriminate. }
  intros v o v' W S E. destruct o as [m|m x|m x|x|i x]; cbn [fv_step] in E.
  - injection E as <-. auto.
  - apply FU in E; try apply RZ; auto. subst. auto.
  - apply FU in E; try apply RZ; auto. subst. auto.
  - unfold fv_push_back in E. rewrite SU in E by (apply RZ; auto). discriminate.
  - rewrite SU in E; auto. discriminate.
Qed.
Lemma fv_width_0 : forall ops v, fv_run (fv_make 0) ops = Ok v -> forall i x, fv_get v i = UB /\ fv_set v i x = UB.
Proof.
  intros ops v E. assert (Z : fv_width v = 0 /\ fv_words v = []).
  { revert E. assert (G : fv_width (fv_make 0) = 0 /\ fv_words (fv_make 0) = []) by auto. revert G. generalize (fv_make 0). 
    induction ops as [|o ops IH]; intros u G E; [injection E as <-; exact G|].
    unfold fv_run in *. cbn [foldM] in E. apply bind_Ok_inv in E. destruct E as (u1 & E1 & E). apply (IH u1); auto.
    apply (fv_step_0 u o); tauto. }
  destruct Z as [W S]. intros i x. unfold fv_get, fv_set, bits_read, bits_write. rewrite W, S, Nat.mul_0_r. split; reflexivity.
Qed.
