(** SamcDict with the portable select: at most 15 keys. *)
From Coq Require Import List NArith ZArith Arith Bool Lia Sorted Permutation.
From Verif Require Import Base Spec Spec5 Spec10 Spec14 BitUtilModel BitUtilProof BitUtilProof2 BitVectorModel BitVectorProof BitVectorProof2 SuccinctModel SuccinctProof SuccinctProof2 SuccinctProof3 SelExact SamcModel SamcPack SamcLevel SamcTree SamcProof SamcAccept SamcDictProof SamcSet SamcSet2 SamcSet3 SamcSet4.
Import ListNotations.
Local Open Scope nat_scope.

Lemma lost_needs : forall x, lost_ones x <> 0 -> 16 <= ones_below 32 x.
Proof.
  intros x H.
  assert (L : forall m, (m < 2 ^ 32)%N -> N.land (x mod 2 ^ 32) m = N.land x m).
  { intros. apply N.bits_inj; intro j. rewrite !N.land_spec. destruct (N.lt_ge_cases j 32%N).
    - now rewrite N.mod_pow2_bits_low.
    - rewrite (Base.testbit_high m 32%N) by auto. now rewrite !andb_false_r. }
  destruct (popcnt32_value (x mod 2 ^ 32)) as (A & B & H1 & H2 & H3 & H4 & H5 & H6).
  { apply N.mod_upper_bound. discriminate. }
  change (2 ^ 32)%N with (2 ^ N.of_nat 32)%N in H3. rewrite ones_below_mod in H3 by lia.
  rewrite L in H4, H5 by reflexivity. unfold lost_ones in H.
  destruct (N.eqb_spec (N.land x 0x0F0F0F0F) 0x0F0F0F0F), (N.eqb_spec (N.land x 0xF0F0F0F0) 0xF0F0F0F0); try lia; congruence.
Qed.

Lemma sel_few : forall x, (x < 2 ^ 64)%N -> ones_below 64 x <= 15 -> selw_ok sel x.
Proof.
  intros x Hx H. assert (O : ones_below 32 x <= ones_below 64 x) by (change 64 with (32 + 32); rewrite ones_below_add; lia).
  assert (Z : lost_ones x = 0). { destruct (Nat.eq_dec (lost_ones x) 0); auto. pose proof (lost_needs x n). lia. }
  apply selw_portable; auto; intros E; unfold lost_ones in Z; rewrite E in Z.
  - rewrite N.eqb_refl in Z. destruct (_ <? _); discriminate.
  - destruct (_ =? _)%N; [destruct (_ <? _); discriminate|]. rewrite N.eqb_refl in Z. discriminate.
Qed.

Lemma leaves_clean : forall s m v, m < length (sm_storage s) ->
  foldM (fun v i => do b <- sm_check s i; if (b =? 0)%N then bv_set v i true else Ok v) (seq 1 m) (bv_sized (length (sm_storage s))) = Ok v ->
  bv_rep v (map (leafb (sm_storage s) m) (seq 0 (length (sm_storage s)))) /\ forall i, bitat (bv_words v) i = true -> i < length (sm_storage s).
Proof.
  intros s. induction m as [|m IH]; intros v Hm E.
  - cbn [seq foldM] in E. injection E as <-. destruct (leaves_ok s 0 Hm) as (v & E & R). cbn [seq foldM] in E. injection E as <-.
    split; [now apply bv_reach_rep|]. intros i Hi. exfalso. unfold bv_sized in Hi. cbn [bv_words] in Hi. unfold bitat in Hi.
    rewrite nth_repeat, N.bits_0 in Hi. discriminate.
  - destruct (leaves_ok s (S m) Hm) as (v1 & E1 & R1). rewrite E in E1. assert (v1 = v) by congruence. subst v1. clear E1.
    split; [now apply bv_reach_rep|]. rewrite seq_S, foldM_app in E. 
    destruct (foldM _ (seq 1 m) _) as [v0| | |] eqn:E0; try discriminate. destruct (IH v0) as [R0 C0]; [lia|auto|]. cbn [bind foldM] in E.
    unfold sm_check in E. rewrite (lget_nth _ _ (1 + m) 0%N) in E by exact Hm. cbn [bind] in E.
    destruct (N.eqb_spec (nth (1 + m) (sm_storage s) 0%N) 0) as [Z|Z].
    + destruct R0 as (Hz & Hl & Hs & Hb). rewrite map_length, seq_length in *. pose proof (gws_ge (length (sm_storage s))).
      unfold bv_set in E. rewrite make_ref_Ok in E. cbn [bind] in E.
      destruct (ref_set_spec (bv_words v0) (1 + m) true) as (ws & E2 & L2 & S2 & B2); [lia|auto|]. rewrite E2 in E. cbn [bind] in E.
      injection E as <-. cbn [bv_words]. intros i Hi. rewrite B2 in Hi. destruct (Nat.eqb_spec i (1 + m)); [lia|auto].
    + cbn [bind] in E. assert (v0 = v) by congruence. subst. auto.
Qed.

Lemma few_words : forall v l, bv_rep v l -> (forall i, bitat (bv_words v) i = true -> i < length l) -> forall x, In x (bv_words v) -> ones_below 64 x <= count_true l.
Proof.
  intros v l RV C x I. destruct (In_nth _ _ 0%N I) as (w & Hw & <-).
  assert (E : forall d, R (bv_words v) (length l + d) = R (bv_words v) (length l)).
  { induction d; [now rewrite Nat.add_0_r|]. rewrite Nat.add_succ_r, R_S, IHd. destruct (bitat (bv_words v) (length l + d)) eqn:B; [|lia]. apply C in B. lia. }
  rewrite <- (firstn_all l), (count_true_R v l) by auto.
  pose proof (R_word (bv_words v) w 64 ltac:(lia)). pose proof (R_mono (bv_words v) (64 * w + 64) (length l + (64 * w + 64)) ltac:(lia)).
  rewrite E in *. lia.
Qed.

Lemma dict_few : forall fuel K, K <> [] -> StronglySorted lex_lt K -> (forall k, In k K -> Forall (fun c => (0 < c < 256)%N) k) -> (forall k, In k K -> length k < fuel) ->
  forall t, sd_build fuel K = Ok t -> forall x, In x (bv_words (sb_bits (sd_leaves t))) -> ones_below 64 x <= length K.
Proof.
  intros fuel K HN HS HB HF t Et x I. destruct (build_ok K HS HB HN false fuel HF) as (s & L & H & C & W & E & B).
  unfold sd_build in Et. rewrite E in Et. cbn [bind] in Et.
  destruct (foldM _ _ _) as [v| | |] eqn:Ev; try discriminate. cbn [bind] in Et. destruct (sb_build true v) as [sv| | |] eqn:Es; try discriminate.
  cbn [bind] in Et. assert (t = {| sd_samc := s; sd_leaves := sv |}) by congruence. subst t. cbn [sd_leaves] in I.
  pose proof (pos_len K HB HN L H C W s B) as PL.
  destruct (leaves_clean s (length (sm_storage s) - 1) v) as [R0 C0]; [lia|auto|].
  destruct (sb_build_total v _ true R0) as (s2 & E2 & E3 & _). assert (s2 = sv) by congruence. subst s2. rewrite E3 in I.
  rewrite <- (lb_count K HS HB HN L H C W s B). unfold lb. apply (few_words v); auto. now rewrite map_length, seq_length.
Qed.

Theorem dict_any_few : forall K, K <> [] -> (forall k, In k K -> bytes k) -> forall fuel, (forall k, In k K -> length (c_string k) < fuel) ->
  let D := nodup (list_eq_dec N.eq_dec) (map c_string K) in length D <= 15 ->
  exists t id, sd_build fuel K = Ok t /\ Permutation (map id D) (seq 0 (length D)) /\ forall q, bytes q ->
    (In q D -> sd_lookup t q = Ok (Some (N.of_nat (id q)))) /\
    (~ In q D -> (forall k r, longest_key (map c_string K) k -> q <> k ++ 0%N :: r) -> sd_lookup t q = Ok None) /\
    ((N.of_nat (length (sm_storage (sd_samc t))) < 2 ^ 41)%N -> In q D -> sd_access sel t (id q) = Ok q).
Proof.
  intros K HN HB fuel HF D HD. rewrite (W_dict K HB). set (W := sorted_set (map c_string K)).
  assert (HW : forall w, In w W -> length w < fuel).
  { intros w H. apply (W_in K) in H. apply in_map_iff in H. destruct H as (k & <- & H). auto. }
  destruct (samc_dict_ok fuel W (W_ne K HN HB) (sorted_set_sorted _) (W_nz K HB) HW) as (t & id & E & P & A1 & A2 & A3).
  exists t, id. split; auto. assert (DW : forall q, In q D <-> In q W) by (intros q; unfold D; rewrite nodup_In; symmetry; apply (W_in K)).
  pose proof (W_perm K) as WP. fold D in WP. fold W in WP.
  assert (PD : Permutation (map id D) (seq 0 (length D))). { rewrite <- (Permutation_length WP). rewrite <- P. apply Permutation_map. now apply Permutation_sym. }
  split; auto. intros q Q. split; [intros H; apply A1; now apply DW|]. split.
  - intros H L. apply A2; auto; [intros I; apply H; now apply DW|]. intros k r Lk. apply L. now apply (W_long K).
  - intros Sz H. destruct (A3 Sz sel) with (k := q) as [X|[X _]]; auto; [|now apply DW|].
    + intros x I X. apply sel_few; auto. pose proof (dict_few fuel W (W_ne K HN HB) (sorted_set_sorted _) (W_nz K HB) HW t E x I) as Y.
      rewrite (Permutation_length WP) in Y. lia.
    + exfalso. assert (Y : In (id q) (seq 0 (length D))) by (apply (Permutation_in _ PD); now apply in_map). apply in_seq in Y. lia.
Qed.
