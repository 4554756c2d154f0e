(** The objects that can be built fit their serialised form: the hypotheses of StreamProof.v hold of them *)
From Coq Require Import List NArith ZArith Lia Bool Arith.
From Verif Require Import Base Spec Spec2 Spec7 Spec23 MultiBitSpec BitUtilModel BitUtilProof BitUtilProof2 CalcModel BitVectorModel BitVectorProof BitVectorProof2
  SuccinctModel SuccinctProof SuccinctProof2 SuccinctProof3 FitVectorModel FitVectorProof FitVectorProof2 DacModel DacProof DacExact
  MultiBitModel MultiBitProof MultiBitProof2 WaveletModel WaveletProof WaveletExact CalcProof StreamModel StreamProof.
Import ListNotations.
Local Open Scope nat_scope.
Ltac Zify.zify_post_hook ::= idtac.

Lemma fits_le : forall n b, (N.of_nat b < 2 ^ 63)%N -> n <= b + 2 -> size_fits n.
Proof. intros n b H L. unfold size_fits. change (2 ^ 64)%N with (2 * 2 ^ 63)%N. assert (4 < 2 ^ 63)%N by reflexivity. lia. Qed.

Lemma small_fits : forall ws, small ws -> Forall word_fits ws.
Proof. intros ws H. eapply Forall_impl; [|exact H]. auto. Qed.

Lemma gws_small : forall n, get_word_size n <= n + 1.
Proof. intros n. unfold get_word_size. destruct (Nat.eqb_spec n 0); [lia|]. assert ((n - 1) / 64 <= n - 1) by (apply Nat.div_le_upper_bound; lia). lia. Qed.

Lemma bv_rep_fits : forall v l, bv_rep v l -> (N.of_nat (length l) < 2 ^ 63)%N -> bv_fits v.
Proof.
  intros v l (A & B & C & _) H. unfold bv_fits. rewrite A, B. split; [eapply fits_le; eauto; lia|]. split; [|now apply small_fits].
  eapply fits_le; eauto. pose proof (gws_small (length l)). lia.
Qed.

(** ** the rank directory *)
Definition odd_fit (block : list N) : Prop := forall q, (nth (2 * q + 1) block 0 < 2 ^ 64)%N.

Lemma odd_even : forall block j x, odd_fit block -> odd_fit (upd block (2 * j) x).
Proof. intros block j x O q. rewrite nth_upd_other by lia. auto. Qed.
Lemma odd_odd : forall block j x, odd_fit block -> (x < 2 ^ 64)%N -> odd_fit (upd block (2 * j + 1) x).
Proof. intros block j x O H q. rewrite nth_upd. destruct (_ && _); auto. Qed.
Lemma put_lt : forall w s i w', (w < 2 ^ 64)%N -> put_tip w s i = Ok w' -> (w' < 2 ^ 64)%N.
Proof. intros w s i w' H E. rewrite put_tip_Ok in E. injection E as <-. apply lor_lt64; auto. apply wshl_lt. Qed.

Lemma block_step_odd : forall ws i st st', 1 <= i -> odd_fit (fst (fst st)) -> (snd st < 2 ^ 64)%N -> block_step ws st i = Ok st' ->
  odd_fit (fst (fst st')) /\ (snd st' < 2 ^ 64)%N.
Proof.
  intros ws i [[b s] sw] st' Hi O H E. unfold block_step in E. cbn [fst snd] in *. apply bind_Ok_inv in E. destruct E as ([[b1 s1] sw1] & E1 & E).
  apply bind_Ok_inv in E. destruct E as (w & _ & E). injection E as <-. cbn [fst snd]. destruct (Nat.eqb_spec (i mod 8) 0) as [Z|Z].
  - pose proof (Nat.div_mod i 8 ltac:(lia)) as D. remember (i / 8) as j eqn:Ej. apply bind_Ok_inv in E1. destruct E1 as (b2 & E2 & E1). apply lset_inv in E2. destruct E2 as (_ & ->).
    apply bind_Ok_inv in E1. destruct E1 as (x & _ & E1). apply bind_Ok_inv in E1. destruct E1 as (b3 & E3 & E1). apply lset_inv in E3. destruct E3 as (_ & ->).
    injection E1 as <- _ <-. split; [|reflexivity]. replace (j * 2) with (2 * j) by lia. apply odd_even.
    replace (2 * j - 1) with (2 * (j - 1) + 1) by lia. now apply odd_odd.
  - apply bind_Ok_inv in E1. destruct E1 as (x & Ex & E1). injection E1 as <- _ <-. split; auto. eapply put_lt; eauto.
Qed.

Lemma block_loop_odd : forall ws n i st st', 1 <= i -> odd_fit (fst (fst st)) -> (snd st < 2 ^ 64)%N -> foldM (block_step ws) (seq i n) st = Ok st' ->
  odd_fit (fst (fst st')) /\ (snd st' < 2 ^ 64)%N.
Proof.
  induction n as [|n IH]; intros i st st' Hi O H E; cbn [seq foldM] in E.
  - injection E as <-. auto.
  - apply bind_Ok_inv in E. destruct E as (st1 & E1 & E). destruct (block_step_odd ws i st st1 Hi O H E1) as (O1 & H1). apply (IH (S i) st1 st'); auto.
Qed.

Lemma build_block_odd : forall v block, build_block v = Ok block -> odd_fit block.
Proof.
  intros v block E. unfold build_block in E. apply bind_Ok_inv in E. destruct E as (w0 & _ & E). apply bind_Ok_inv in E. destruct E as (st & E1 & E).
  apply block_loop_odd in E1; auto; cbn [fst snd] in *; [|intros q; destruct (Nat.lt_ge_cases (2 * q + 1) ((bv_size v / 512 + 1) * 2)); [rewrite nth_repeat; reflexivity|rewrite nth_overflow by (now rewrite repeat_length); reflexivity]|reflexivity].
  destruct E1 as (O & H). destruct st as [[b s] sw]. cbn [fst snd] in *. set (i := Nat.max 1 (bv_size v / 64)) in *. assert (1 <= i) by lia.
  unfold block_finish in E. pose proof (Nat.div_mod i 8 ltac:(lia)) as D. destruct (Nat.eqb_spec (i mod 8) 0) as [Z|Z]; cbn [negb] in E.
  - apply bind_Ok_inv in E. destruct E as (b2 & E2 & E). apply lset_inv in E2. destruct E2 as (_ & ->).
    apply bind_Ok_inv in E. destruct E as (x & _ & E). apply bind_Ok_inv in E. destruct E as (b3 & E3 & E). apply lset_inv in E3. destruct E3 as (_ & ->). apply lset_inv in E. destruct E as (_ & ->).
    replace (i / 8 * 2) with (2 * (i / 8)) by lia. apply odd_odd; [|reflexivity]. apply odd_even.
    replace (2 * (i / 8) - 1) with (2 * (i / 8 - 1) + 1) by lia. now apply odd_odd.
  - apply bind_Ok_inv in E. destruct E as (x & Ex & E). apply lset_inv in E. destruct E as (_ & ->). replace (i / 8 * 2) with (2 * (i / 8)) by lia.
    apply odd_odd; auto. eapply put_lt; eauto.
Qed.

Lemma P_small : forall ws k, (P ws k <= N.of_nat (64 * k))%N.
Proof. intros ws k. pose proof (P_le ws 0 k ltac:(lia)) as H. unfold P in *. replace (R ws (64 * 0)) with 0 in H by (symmetry; apply R_0). lia. Qed.

Lemma dir_fits : forall v l block, bv_rep v l -> (N.of_nat (length l) < 2 ^ 63)%N -> length block = (length l / 512 + 1) * 2 ->
  dir_ok (bv_words v) block (length l / 64) -> odd_fit block -> Forall word_fits block.
Proof.
  intros v l block _ Hl L (D & _) O. apply Forall_forall. intros x I. apply In_nth with (d := 0%N) in I. destruct I as (i & Hi & <-). unfold word_fits.
  pose proof (Nat.div_mod i 2 ltac:(lia)) as Di. pose proof (Nat.mod_upper_bound i 2 ltac:(lia)).
  destruct (i mod 2) as [|[|]] eqn:Em; [|replace i with (2 * (i / 2) + 1) by lia; apply O|lia].
  replace i with (2 * (i / 2)) by lia. rewrite D.
  - eapply N.le_lt_trans; [apply P_small|]. assert (Q : i / 2 <= length l / 512) by lia. assert (512 * (length l / 512) <= length l) by (apply Nat.mul_div_le; lia).
    apply N.le_lt_trans with (N.of_nat (length l)); [lia|]. apply N.lt_trans with (2 ^ 63)%N; [auto|reflexivity].
  - rewrite <- div_512. lia.
Qed.

Lemma tips_small : forall block n j st st', foldM (tips_step block) (seq j n) st = Ok st' -> Forall (fun x => (x < 2 ^ 32)%N) (fst st) ->
  Forall (fun x => (x < 2 ^ 32)%N) (fst st') /\ length (fst st') <= length (fst st) + n.
Proof.
  induction n as [|n IH]; intros j st st' E F; cbn [seq foldM] in E.
  - injection E as <-. split; auto. lia.
  - apply bind_Ok_inv in E. destruct E as (st1 & E1 & E). destruct st as [t th]. unfold tips_step in E1. apply bind_Ok_inv in E1. destruct E1 as (b & _ & E1). cbn [fst] in *.
    destruct (th <=? b)%N; injection E1 as <-; apply IH in E; cbn [fst] in *; auto.
    + rewrite app_length in E. cbn [length] in E. split; [tauto|]. lia.
    + apply Forall_app. split; auto. constructor; [|constructor]. apply N.mod_upper_bound. discriminate.
    + split; [tauto|]. lia.
Qed.

Lemma sb_build_fits : forall us v l s, bv_rep v l -> (N.of_nat (length l) < 2 ^ 63)%N -> sb_build us v = Ok s -> sb_fits s /\ (us = false -> sb_tips s = []).
Proof.
  intros us v l s R H E. pose proof (SuccinctProof.build_ok v l us s R E) as (B & _ & L & D). unfold sb_fits. rewrite B in *. rewrite L.
  assert (H5 : length l / 512 <= length l) by (apply Nat.div_le_upper_bound; lia).
  assert (H5' : 512 * (length l / 512) <= length l) by (apply Nat.mul_div_le; lia).
  pose proof (bv_rep_fits v l R H) as FB. unfold sb_build in E. destruct (Nat.eqb_spec (bv_size v) 0) as [Z|Z].
  - injection E as <-. cbn [sb_block sb_tips length] in *. split; auto. split; auto. split; [eapply fits_le; eauto; lia|]. split; [repeat constructor|]. split; [reflexivity|constructor].
  - apply bind_Ok_inv in E. destruct E as (block & Eb & E). apply bind_Ok_inv in E. destruct E as (tips & Et & E). injection E as <-. cbn [sb_block sb_tips sb_bits] in *.
    assert (T : Forall (fun x => (x < 2 ^ 32)%N) tips /\ length tips <= length l / 512 + 2 /\ (us = false -> tips = [])).
    { destruct us; [|injection Et as <-; split; [constructor|]; split; [cbn; lia|auto]]. unfold build_tips in Et. apply bind_Ok_inv in Et. destruct Et as (st & E1 & Et). injection Et as <-.
      apply tips_small in E1; [|repeat constructor]. cbn [fst length] in E1. destruct E1 as (A1 & A2). destruct R as (R0 & _). rewrite R0 in *. split; [|split; [|discriminate]].
      - apply Forall_app. split; auto. constructor; [|constructor]. apply N.mod_upper_bound. discriminate.
      - rewrite app_length. cbn [length]. lia. }
    destruct T as (T1 & T2 & T3). split; auto. split; auto. split; [eapply fits_le; eauto; lia|]. split; [|split; [eapply fits_le; eauto; lia|auto]].
    eapply dir_fits; eauto. now apply build_block_odd with v.
Qed.

(** ** FitVector *)
Lemma fv_words_le : forall n w, w <= 63 -> fv_word_size n w <= n + 1.
Proof.
  intros n w H. unfold fv_word_size. destruct ((n =? 0) || (w =? 0)); [lia|]. assert ((n * w - 1) / 64 <= n) by (apply Nat.div_le_upper_bound; nia). lia.
Qed.

Lemma fv_shape_fits : forall v, fv_width v <= 63 -> (N.of_nat (fv_size v) < 2 ^ 63)%N -> length (fv_words v) = fv_word_size (fv_size v) (fv_width v) -> small (fv_words v) -> fv_fits v.
Proof.
  intros v W H L S. unfold fv_fits. split; [apply fits_le with 63; [reflexivity|lia]|]. split; [eapply fits_le; eauto; lia|]. split; [|now apply small_fits].
  rewrite L. eapply fits_le; eauto. pose proof (fv_words_le (fv_size v) (fv_width v) W). lia.
Qed.

Lemma fv_rep_fits : forall v l g, fv_rep v l g -> (N.of_nat (length l) < 2 ^ 63)%N -> fv_fits v /\ fv_width v < 64.
Proof. intros v l g (A & B & C & D & _) H. split; [|lia]. apply fv_shape_fits; auto; rewrite ?B; auto; lia. Qed.

Theorem fv_stream : forall w ops n T, 1 <= w <= 63 -> Forall op_word ops -> tape_run w (0, fun _ => false) ops = Some (n, T) -> (N.of_nat n < 2 ^ 63)%N ->
  exists v, fv_run (fv_make w) ops = Ok v /\ fv_size_in_bytes v = length (fv_write v) /\ forall rest, fv_read (fv_write v ++ rest) = Ok (v, rest).
Proof.
  intros w ops n T Hw F E H. destruct (fv_run_tape w ops (fv_make w) 0 (fun _ => false) (n, T)) as (v & S & R); auto.
  - unfold fv_tape. cbn. split; auto. split; auto. split; auto. split; [constructor|]. intros q. unfold bitat. cbn [fv_words]. destruct (q / 64); apply N.bits_0.
  - exists v. split; auto. cbn [fst snd] in R. destruct R as (Ew & En & L & Sm & _). split; [apply fv_size_bytes|]. apply rt_fv; [|lia].
    apply fv_shape_fits; auto; try lia; congruence.
Qed.

Theorem bv_stream : forall v l, bv_reach v l -> (N.of_nat (length l) < 2 ^ 63)%N ->
  bv_size_in_bytes v = length (bv_write v) /\ forall rest, bv_read (bv_write v ++ rest) = Ok (v, rest).
Proof. intros v l R H. split; [apply bv_size_bytes|]. apply rt_bv. eapply bv_rep_fits; eauto. now apply bv_reach_rep. Qed.

(** the objects a SuccinctBitVector may be read into *)
Definition sb_object (us : bool) (t : sbv) : Prop := t = sb_default \/ exists v l, bv_reach v l /\ sb_build us v = Ok t.

Lemma sb_object_tips : forall t, sb_object false t -> sb_tips t = [].
Proof.
  intros t [->|(v & l & R & E)]; auto. unfold sb_build in E. destruct (bv_size v =? 0); [injection E as <-; auto|].
  apply bind_Ok_inv in E. destruct E as (b & _ & E). apply bind_Ok_inv in E. destruct E as (x & Ex & E). injection Ex as <-. injection E as <-. reflexivity.
Qed.

Theorem sb_stream : forall us v l, bv_reach v l -> (N.of_nat (length l) < 2 ^ 63)%N ->
  exists s, sb_build us v = Ok s /\ sb_size_in_bytes us s = length (sb_write us s) /\
    forall target rest, sb_object us target -> sb_read us target (sb_write us s ++ rest) = Ok (s, rest).
Proof.
  intros us v l R H. apply bv_reach_rep in R. destruct (sb_build_total v l us R) as (s & E & _). exists s. split; auto. split; [apply sb_size_bytes|].
  destruct (sb_build_fits us v l s R H E) as (F & T). intros target rest O. apply rt_sb; auto. intros ->. rewrite T by auto. symmetry. now apply sb_object_tips.
Qed.

(** ** DacVector *)
Lemma filter_len : forall A (f : A -> bool) l, length (filter f l) <= length l.
Proof. induction l as [|a l IH]; simpl; [lia|]. destruct (f a); simpl; lia. Qed.

Lemma deep_fits : forall units layers paths l, deep_rep units layers paths l -> length layers = length units -> length paths = length units -> (N.of_nat (length l) < 2 ^ 63)%N ->
  Forall (fun L => fv_fits L /\ fv_width L < 64) layers /\ Forall (fun p => exists lp, bv_rep p lp /\ (N.of_nat (length lp) < 2 ^ 63)%N) paths.
Proof.
  induction units as [|u us IH]; intros [|L Ls] [|p ps] l D Ll Lp H; try discriminate; [auto|]. destruct D as (A & B & _ & D).
  pose proof (filter_len _ pos l) as Hf. destruct (IH Ls ps _ D) as (F1 & F2); [simpl in Ll; lia|simpl in Lp; lia|rewrite map_length; lia|].
  split; constructor; auto.
  - eapply fv_rep_fits; eauto. rewrite map_length. lia.
  - exists (map pos l). split; auto. rewrite map_length. auto.
Qed.

Lemma paths_fit : forall paths ps, Forall (fun p => exists lp, bv_rep p lp /\ (N.of_nat (length lp) < 2 ^ 63)%N) paths -> mapM (sb_build false) paths = Ok ps ->
  Forall (fun p => sb_fits p /\ sb_tips p = []) ps /\ length ps = length paths.
Proof.
  induction paths as [|p paths IH]; intros ps F E; cbn [mapM] in E.
  - injection E as <-. auto.
  - inversion F as [|? ? (lp & R & H) Fp]; subst. apply bind_Ok_inv in E. destruct E as (s & Es & E). apply bind_Ok_inv in E. destruct E as (ss & E1 & E). injection E as <-.
    destruct (IH ss Fp E1) as (A & B). destruct (sb_build_fits false p lp s R H Es) as (C & D). split; [constructor; auto|simpl; lia].
Qed.

Lemma units_short : forall units, Forall (fun u => 1 <= u) units -> length units <= list_sum_nat units.
Proof. induction 1 as [|u us H F IH]; [auto|]. change (list_sum_nat (u :: us)) with (u + list_sum_nat us). simpl. lia. Qed.

Lemma dac_build_fits : forall units l d, Forall (fun v => (v < 2 ^ 63)%N) l -> units <> [] -> Forall (fun u => 1 <= u <= 63) units -> length units <= 64 -> (N.of_nat (length l) < 2 ^ 63)%N ->
  dac_build units l = Ok d -> dac_shape d /\ dac_fits d.
Proof.
  intros units l d F Hn Fu L64 H E. destruct units as [|u0 us]; [congruence|]. unfold dac_build in E. remember (u0 :: us) as units eqn:Eu.
  apply bind_Ok_inv in E. destruct E as (cf & _ & E). apply bind_Ok_inv in E. destruct E as (? & _ & E).
  destruct (push_all_rep units l (map fv_make units, repeat bv_default (length us)) [] Fu) as ([layers paths] & Es & R).
  { rewrite Eu in *. now apply start_rep. }
  rewrite Es in E. cbn [bind fst snd] in E. apply bind_Ok_inv in E. destruct E as (ps & Eps & E). injection E as <-. simpl app in R. rewrite Eu in R. destruct layers as [|L0 Ls]; [destruct R|].
  cbn [all_rep fst snd] in R. destruct R as (V & W & L1 & L2 & D).
  destruct (deep_fits us Ls paths _ D L1 L2) as (F1 & F2); [now rewrite map_length|]. destruct (paths_fit paths ps F2 Eps) as (F3 & L3).
  split.
  - exists (length units). cbn [dac_num dac_units dac_layers dac_paths]. rewrite Eu. cbn [length]. repeat split; lia.
  - unfold dac_fits. cbn [dac_units dac_layers dac_paths]. split; [apply fits_le with 64; [reflexivity|lia]|]. split; [|split; auto].
    + eapply Forall_impl; [|exact Fu]. cbv beta. intros u Hu. apply fits_le with 63; [reflexivity|lia].
    + constructor; auto. eapply fv_rep_fits; eauto. now rewrite map_length.
Qed.

Theorem dac_stream : forall units l d, l <> [] -> units <> [] -> (N.of_nat (length l) < 2 ^ 63)%N -> dac_of_list l units = Ok d ->
  exists bytes, dac_write d = Ok bytes /\ dac_size_in_bytes d = Ok (length bytes + 8) /\ forall rest, dac_read (bytes ++ rest) = Ok (d, rest).
Proof.
  intros units l d Hl Hu H E. destruct (proj1 (dac_defined units l Hl Hu) (ex_intro _ d E)) as (F & Fu & S).
  assert (EQ : dac_of_list l units = dac_build units l) by (unfold dac_of_list, dac_of_list_gen; destruct l; [congruence|]; destruct units; [congruence|]; reflexivity).
  rewrite EQ in E. destruct (dac_build_fits units l d F Hu Fu) as (A & B); auto.
  - pose proof (max_bits_le63 l F). rewrite (removelast_last units Hu), app_length. cbn [length]. assert (Forall (fun u => 1 <= u) (removelast units)).
    { rewrite Forall_forall in *. intros u I. apply Fu. rewrite (removelast_last units Hu). apply in_or_app. auto. }
    pose proof (units_short (removelast units) H1). lia.
  - destruct (rt_dac d A B) as (w & Ew & R). exists w. split; auto. split; auto. destruct (dac_size_bytes d A) as (w' & Ew' & Z). congruence.
Qed.

(** ** MultiBitVector *)
Definition mbinv (U : nat) (v : multibit) : Prop :=
  small (mb_bits v) /\ (N.of_nat (length (mb_bits v)) <= 2 ^ 57)%N /\ length (mb_tips v) = kMaxNumTypes U /\ Forall (fun ts => size_fits (length ts) /\ Forall (tip_fits U) ts) (mb_tips v).

Lemma mb_set_tips : forall U v j x v', mb_set U v j x = Ok v' -> mb_tips v' = mb_tips v.
Proof.
  intros U v j x v' E. unfold mb_set in E. apply bind_Ok_inv in E. destruct E as (a & _ & E). apply bind_Ok_inv in E. destruct E as (b & _ & E). apply bind_Ok_inv in E. destruct E as (c & _ & E).
  apply bind_Ok_inv in E. destruct E as (d & _ & E). injection E as <-. cbn [mb_tips]. unfold mb_resize_check. destruct (_ <? _); reflexivity.
Qed.

Lemma tips_for_fits : forall U ws t m, okU U -> small ws -> 1 <= t < 2 ^ U -> (N.of_nat (length ws) <= 2 ^ 57)%N -> Forall (tip_fits U) (tips_for U ws t m).
Proof.
  intros U ws t m HU Hs Ht HL. destruct (per_facts U HU) as (A & B & _ & _ & EK & F & G). assert (PU : per U <= 64) by (destruct HU as [->|[->| ->]]; vm_compute; lia).
  assert (HC : forall q, (N.of_nat (Cw U ws t q) < 2 ^ 64)%N).
  { intros q. unfold Cw. pose proof (rc_le (N.of_nat t) (elem U ws) (per U * Nat.min q (length ws))) as X.
    assert (Y : per U * Nat.min q (length ws) <= 64 * length ws) by (apply Nat.mul_le_mono; lia). change (2 ^ 64)%N with (2 * (64 * 2 ^ 57))%N. lia. }
  unfold tips_for. apply Forall_forall. intros x I. apply in_map_iff in I. destruct I as (i & <- & _). unfold tip_fits. cbn [tip_L1 tip_L2]. split; [apply HC|].
  unfold L2_at. rewrite map_length, seq_length. split; [exact EK|]. apply Forall_forall. intros y I. apply in_map_iff in I. destruct I as (o & <- & I). apply in_seq in I.
  pose proof (Cw_diff U HU ws t Ht (i * kBlocksInTipSize U) o) as X. rewrite EK in I. assert (o * per U <= (4 * U - 1) * per U) by (apply Nat.mul_le_mono_r; lia).
  assert ((4 * U - 1) * per U < 256) by (destruct HU as [->|[->| ->]]; vm_compute; lia). lia.
Qed.

Lemma types_fold_fits : forall U ws ts (Q : list tip -> Prop) all, okU U -> small ws -> length all = 2 ^ U -> Forall Q all -> (forall t, 1 <= t < 2 ^ U -> Q (tips_for U ws t ts)) ->
  forall m, m < 2 ^ U -> exists all', foldM (fun all type => do r <- foldM (mb_tip U type ws) (seq 0 ts) ([], 0%N); lset all (type - 1) (fst r)) (seq 1 m) all = Ok all' /\
    length all' = 2 ^ U /\ Forall Q all'.
Proof.
  intros U ws ts Q all HU Hs L FQ T. induction m as [|m IH]; intros Hm; [exists all; auto|].
  destruct IH as (a1 & E & L1 & G); [lia|]. rewrite seq_S, foldM_app, E. cbn [bind foldM]. change (1 + m) with (S m).
  rewrite tips_fold by (auto; lia). cbn [bind fst]. rewrite lset_Ok by lia. cbn [bind]. eexists. split; [reflexivity|]. split; [now rewrite upd_length|].
  apply Forall_forall. intros x I. apply In_nth with (d := []) in I. destruct I as (i & Hi & <-). rewrite upd_length in Hi. rewrite nth_upd. destruct (_ && _); [apply T; lia|]. rewrite Forall_forall in G. apply G, nth_In. auto.
Qed.

Lemma mb_build_inv : forall U v, okU U -> mbinv U v -> exists v', mb_build U v = Ok v' /\ mbinv U v' /\ mb_bits v' = mb_bits v.
Proof.
  intros U v HU (A & B & C & D). unfold mb_build. destruct (Nat.eqb_spec (length (mb_bits v)) 0) as [Z|Z]; [exists v; repeat split; auto|].
  destruct (num_types_ok U v HU) as (m & Em & Mm & _). rewrite Em. cbn [bind]. set (ts := (length (mb_bits v) + kBlocksInTipSize U - 1) / kBlocksInTipSize U) in *.
  assert (K1 : 1 <= kBlocksInTipSize U) by (destruct HU as [->|[->| ->]]; vm_compute; lia).
  assert (TS : ts <= length (mb_bits v) + kBlocksInTipSize U) by (apply Nat.div_le_upper_bound; nia). assert (K2 : kBlocksInTipSize U <= 12) by (destruct HU as [->|[->| ->]]; vm_compute; lia).
  destruct (types_fold_fits U (mb_bits v) ts (fun ts => size_fits (length ts) /\ Forall (tip_fits U) ts) (mb_tips v) HU A C D) with (m := m - 1) as (all & Ea & La & Fa).
  - intros t Ht. split; [|now apply tips_for_fits]. unfold tips_for. rewrite map_length, seq_length. unfold size_fits. assert (2 ^ 57 + 12 < 2 ^ 64)%N by reflexivity. lia.
  - assert (2 ^ U <> 0) by (apply Nat.pow_nonzero; lia). lia.
  - rewrite Ea. cbn [bind]. eexists. split; [reflexivity|]. unfold mbinv. cbn [mb_bits mb_tips]. auto.
Qed.

Lemma mb_run_inv : forall U ops, okU U -> Forall (mb_op_fits U) (writes ops) -> Forall (fun o => (N.of_nat (mb_index o) < 2 ^ 57)%N) (writes ops) ->
  exists v, mb_run_b U ops = Ok v /\ mbinv U v.
Proof.
  intros U ops HU. destruct (per_facts U HU) as (A & _). induction ops as [|o ops IH] using rev_ind; intros F G.
  - exists (mb_default U). split; auto. unfold mbinv, mb_default. cbn [mb_bits mb_tips]. split; [constructor|]. split; [cbn; lia|]. split; [apply repeat_length|].
    apply Forall_forall. intros x I. apply repeat_spec in I. subst x. split; [reflexivity|constructor].
  - rewrite writes_app in *. apply Forall_app in F, G. destruct F as (F1 & F2), G as (G1 & G2). destruct (IH F1 G1) as (v & E & I). unfold mb_run_b in *. rewrite foldM_app, E. cbn [bind foldM].
    assert (J : forall j, (N.of_nat j < 2 ^ 57)%N -> (N.of_nat (j / per U + 1) <= 2 ^ 57)%N).
    { intros j Hj. assert (j / per U <= j) by (apply Nat.div_le_upper_bound; nia). lia. }
    destruct o as [[j x|j]|]; cbn [mb_step_b mb_step writes] in *.
    + apply Forall_inv in F2, G2. cbn [mb_index] in G2. destruct I as (I1 & I2 & I3 & I4).
      destruct (mb_set_rep U v (per U * length (mb_bits v)) (elem U (mb_bits v)) j x HU) as (v' & E' & M1 & M2 & M3 & _); [repeat split; auto|exact F2|].
      exists v'. rewrite E'. split; auto. pose proof (mb_set_tips U v j x v' E') as ET. unfold mbinv. rewrite ET in *. split; auto. split; auto.
      specialize (J j G2). assert (length (mb_bits v') <= Nat.max (length (mb_bits v)) (j / per U + 1)) by nia. lia.
    + apply Forall_inv in G2. cbn [mb_index] in G2. destruct I as (I1 & I2 & I3 & I4). eexists. split; [reflexivity|]. unfold mbinv, mb_resize. cbn [mb_bits mb_tips]. rewrite mb_abs_per by auto.
      split; [now apply small_lresize|]. split; [rewrite lresize_length; auto|]. auto.
    + destruct (mb_build_inv U v HU I) as (v' & E' & I' & _). exists v'. rewrite E'. auto.
Qed.

Theorem mb_stream : forall U ops, okU U -> Forall (mb_op_fits U) (writes ops) -> Forall (fun o => (N.of_nat (mb_index o) < 2 ^ 57)%N) (writes ops) ->
  exists v, mb_run_b U ops = Ok v /\ mb_size_in_bytes U v = length (mb_write U v) /\ forall rest, mb_read U (mb_write U v ++ rest) = Ok (v, rest).
Proof.
  intros U ops HU F G. destruct (mb_run_inv U ops HU F G) as (v & E & (A & B & C & D)). exists v. split; auto.
  assert (X : mb_fits U v).
  { split; [unfold size_fits; assert (2 ^ 57 < 2 ^ 64)%N by reflexivity; lia|]. split; [now apply small_fits|]. split; auto. }
  split; [now apply mb_size_bytes|]. now apply rt_mb.
Qed.

(** ** WaveletTree *)
Lemma mapM_In : forall src nodes n, mapM (sb_build false) src = Ok nodes -> In n nodes -> exists v, In v src /\ sb_build false v = Ok n.
Proof.
  induction src as [|a src IH]; intros nodes n E I; cbn [mapM] in E.
  - injection E as <-. destruct I.
  - apply bind_Ok_inv in E. destruct E as (s & Es & E). apply bind_Ok_inv in E. destruct E as (ss & E1 & E). injection E as <-. destruct I as [<-|I]; [exists a; split; [now left|auto]|].
    destruct (IH ss n E1 I) as (v & Iv & Ev). exists v. split; [now right|auto].
Qed.

Lemma nbits_le : forall k p l, length (nbits k p l) <= length l.
Proof. intros. unfold nbits. rewrite map_length. apply filter_len. Qed.

Lemma wt_make_small : forall l t, wt_make l = Ok t -> l <> [] /\ Forall (fun x => (x < 2 ^ 31)%N) l.
Proof.
  intros l t E. split; [intros ->; discriminate|]. apply Forall_forall. intros x I. destruct (N.lt_ge_cases x (2 ^ 31)) as [|G]; auto. exfalso.
  rewrite wt_make_undefined in E; [discriminate|]. right. apply Exists_exists. eauto.
Qed.

Lemma wt_make_fits : forall l t, wt_make l = Ok t -> (N.of_nat (length l) < 2 ^ 63)%N -> wt_fits t.
Proof.
  intros l t E H. destruct (wt_make_small l t E) as (Hl & F).
  assert (Hm : (max_element l < 2 ^ 31)%N) by (apply max_element_bound; auto; vm_compute; reflexivity).
  assert (Hm63 : (max_element l < 2 ^ 63)%N) by (apply N.lt_trans with (2 ^ 31)%N; [auto|vm_compute; reflexivity]).
  destruct (bits_needed_spec (max_element l)) as (B1 & B2 & _). pose proof (bits_needed_le _ 31 Hm ltac:(lia)) as B3.
  unfold wt_make in E. destruct l as [|a l'] eqn:El; [congruence|]. rewrite <- El in *.
  rewrite SizeFitsInBits_ok in E by auto. cbn [bind] in E. set (h := bits_needed (max_element l)) in *. destruct (Nat.leb_spec 32 h); [lia|].
  assert (Fh : Forall (fun x => (x < 2 ^ N.of_nat h)%N) l).
  { apply Forall_forall. intros x Hx. apply N.le_lt_trans with (max_element l); auto. now apply max_element_le. }
  destruct (insert_all h l (repeat bv_default (2 ^ h - 1)) [] Fh) as (src & Es & W).
  { split; [apply repeat_length|]. intros. rewrite nth_repeat. apply bv_default_rep. }
  rewrite Es in E. cbn [bind] in E. apply bind_Ok_inv in E. destruct E as (nodes & En & E). destruct W as (L & W). simpl app in W.
  assert (T : t = WT h (wrap64 (max_element l + 1)) nodes) by congruence. subst t.
  unfold wt_fits. cbn [wt_height wt_leafs wt_nodes]. split; [apply fits_le with 32; [reflexivity|lia]|]. split; [apply N.mod_upper_bound; discriminate|].
  apply Forall_forall. intros n I. destruct (mapM_In src nodes n En I) as (v & Iv & Ev). apply In_nth with (d := bv_default) in Iv. destruct Iv as (i & Hi & <-).
  destruct (nid_onto h i) as (k & p & Hk & Hp & Ei); [lia|]. specialize (W k p Hk Hp). rewrite Ei in W. pose proof (nbits_le k p l).
  destruct (sb_build_fits false _ _ n W) as (A & B); auto. lia.
Qed.
