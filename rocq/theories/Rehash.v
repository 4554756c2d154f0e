(** How many elements growing moves (C142). *)
From Coq Require Import List NArith ZArith Arith Bool Lia.
From Verif Require Import Base Spec4 Spec8 Spec34 BitUtilModel FitVectorModel HashModel CHTModel CHTRing CHTWord CHTProof CHTMain CHTResize CHTRun SpaceProof RehashModel.
Import ListNotations.
Local Open Scope nat_scope.

Section Same.
Variables (VB L : nat).
Variable setc : cht -> N -> N -> res (nat * cht).
Variable set : cht -> N -> N -> res cht.
Hypothesis Hset : forall t k v, rmap snd (setc t k v) = set t k v.
Lemma move_cluster_same : forall fuel t next i cnt qs f k, rmap snd (move_cluster_count setc fuel t next i cnt qs f k) = move_cluster set fuel t next i cnt qs f.
Proof.
  induction fuel as [|fuel IH]; intros t next i cnt qs f k; cbn [move_cluster_count move_cluster]; auto. destruct (fv_get (ch_arr t) i) as [w| | |]; cbn [bind rmap]; auto.
  set (qs1 := if is_occupied w then qs ++ [i] else qs). destruct (if is_continuation w then _ else _) as [[qs2 f2]| | |]; cbn [bind rmap]; auto.
  assert (Go : forall k2 next2, rmap snd (let i0 := cht_succ t i in do w0 <- fv_get (ch_arr t) i0; if is_shifted w0 then move_cluster_count setc fuel t next2 i0 (S cnt) qs2 f2 k2 else Ok (k2, (next2, i0, S cnt))) =
    let i0 := cht_succ t i in do w0 <- fv_get (ch_arr t) i0; if is_shifted w0 then move_cluster set fuel t next2 i0 (S cnt) qs2 f2 else Ok (next2, i0, S cnt)).
  { intros k2 next2. cbv zeta. destruct (fv_get (ch_arr t) (cht_succ t i)) as [w0| | |]; cbn [bind rmap]; auto. destruct (is_shifted w0); auto. }
  destruct (is_deleted w); [apply Go|]. destruct f2 as [f2|]; auto. destruct (quotient t w); cbn [bind rmap]; auto. destruct (shl64 _ _); cbn [bind rmap]; auto. destruct (sm_ihash _ _); cbn [bind rmap]; auto. destruct (fv_get (ch_values t) i); cbn [bind rmap]; auto.
  rewrite <- Hset. destruct (setc next _ _) as [[c n2]| | |]; cbn [bind rmap fst snd]; auto.
Qed.
Lemma move_all_same : forall fuel t next i cnt k, rmap snd (move_all_count setc fuel t next i cnt k) = move_all set fuel t next i cnt.
Proof.
  induction fuel as [|fuel IH]; intros t next i cnt k; cbn [move_all_count move_all]; destruct (cnt <? ch_used t); auto. destruct (skip_to_cluster _ t i); cbn [bind rmap]; auto.
  rewrite <- (move_cluster_same (S (ch_bucket t)) t next a cnt [] None k). destruct (move_cluster_count _ _ _ _ _ _ _ _ _) as [[k2 [[n2 i2] c2]]| | |]; cbn [bind rmap snd]; auto.
Qed.
Lemma resize_same : forall t b, rmap snd (cht_resize_count VB L setc t b) = cht_resize VB L set t b.
Proof. intros t b. unfold cht_resize_count, cht_resize. destruct (if VB =? 0 then _ else _); cbn [bind rmap]; auto. apply move_all_same. Qed.
Lemma reserve_same : forall t n, rmap snd (cht_reserve_with_count VB L setc t n) = cht_reserve_with VB L set t n.
Proof. intros t n. unfold cht_reserve_with_count, cht_reserve_with. destruct (n <=? ch_size t); auto. cbv zeta. destruct (shl64 _ _); cbn [bind rmap]; auto. apply resize_same. Qed.
End Same.
Lemma set_same : forall VB L fuel t k v, rmap snd (cht_set_fuel_count VB L fuel t k v) = cht_set_fuel VB L fuel t k v.
Proof.
  intros VB L. induction fuel as [|fuel IH]; intros t k v; cbn [cht_set_fuel_count cht_set_fuel]; auto. destruct (cht_is_filled t).
  - rewrite <- (reserve_same VB L _ _ IH). destruct (cht_reserve_with_count _ _ _ _ _) as [[c t1]| | |]; cbn [bind rmap fst snd]; auto. destruct (cht_insert t1 k v); auto.
  - cbn [bind fst snd]. destruct (cht_insert t k v); auto.
Qed.
Lemma step_same : forall VB L st o, rmap snd (cht_step_count VB L st o) = cht_step VB L (snd st) o.
Proof.
  intros VB L [[a r] t] [k v|n]; cbn [cht_step_count cht_step snd].
  - unfold cht_set, cht_set_count. rewrite <- set_same. destruct (cht_set_fuel_count _ _ _ _ _ _) as [[c t1]| | |]; auto.
  - unfold cht_reserve, cht_reserve_count. rewrite <- (reserve_same VB L _ _ (set_same VB L 4)). fold (cht_set_count VB L). destruct (cht_reserve_with_count _ _ _ _ _) as [[c t1]| | |]; auto.
Qed.

(** a set that is undefined where the count is not as expected *)
Section Guard.
Variables (VB L : nat).
Variable setc : cht -> N -> N -> res (nat * cht).
Variable test : nat -> cht -> cht -> bool.
Variable J : nat -> cht -> Prop.
Hypothesis HJ : forall k nt c nt', J k nt -> test c nt nt' = true -> J (k + S c) nt'.
Definition guarded (nt : cht) (key v : N) : res cht := do r <- setc nt key v; if test (fst r) nt (snd r) then Ok (snd r) else UB.
Lemma move_cluster_guard : forall fuel t next i cnt qs f k r, J k next -> move_cluster guarded fuel t next i cnt qs f = Ok r -> exists k', move_cluster_count setc fuel t next i cnt qs f k = Ok (k', r) /\ J k' (fst (fst r)).
Proof.
  induction fuel as [|fuel IH]; intros t next i cnt qs f k r Hk; cbn [move_cluster_count move_cluster]; [discriminate|]. destruct (fv_get (ch_arr t) i) as [w| | |]; cbn [bind]; try discriminate.
  set (qs1 := if is_occupied w then qs ++ [i] else qs). destruct (if is_continuation w then _ else _) as [[qs2 f2]| | |]; cbn [bind]; try discriminate.
  assert (Go : forall k2 next2, J k2 next2 -> (let i0 := cht_succ t i in do w0 <- fv_get (ch_arr t) i0; if is_shifted w0 then move_cluster guarded fuel t next2 i0 (S cnt) qs2 f2 else Ok (next2, i0, S cnt)) = Ok r ->
    exists k', (let i0 := cht_succ t i in do w0 <- fv_get (ch_arr t) i0; if is_shifted w0 then move_cluster_count setc fuel t next2 i0 (S cnt) qs2 f2 k2 else Ok (k2, (next2, i0, S cnt))) = Ok (k', r) /\ J k' (fst (fst r))).
  { intros k2 next2 H2. cbv zeta. destruct (fv_get (ch_arr t) (cht_succ t i)) as [w0| | |]; cbn [bind]; try discriminate. destruct (is_shifted w0); [now apply IH|]. intros E. injection E as <-. exists k2. auto. }
  destruct (is_deleted w); [now apply Go|]. destruct f2 as [f2|]; [|discriminate]. destruct (quotient t w); cbn [bind]; try discriminate. destruct (shl64 _ _); cbn [bind]; try discriminate. destruct (sm_ihash _ _); cbn [bind]; try discriminate. destruct (fv_get (ch_values t) i); cbn [bind]; try discriminate.
  unfold guarded at 1. destruct (setc next _ _) as [[c n2]| | |]; cbn [bind fst snd]; try discriminate. destruct (test c next n2) eqn:Et; cbn [bind]; try discriminate. apply Go. eapply HJ; eauto.
Qed.
Lemma move_all_guard : forall fuel t next i cnt k t', J k next -> move_all guarded fuel t next i cnt = Ok t' -> exists k', move_all_count setc fuel t next i cnt k = Ok (k', t') /\ J k' t'.
Proof.
  induction fuel as [|fuel IH]; intros t next i cnt k t' Hk; cbn [move_all_count move_all]; destruct (cnt <? ch_used t); try discriminate; try (intros E; injection E as <-; eauto; fail). destruct (skip_to_cluster _ t i); cbn [bind]; try discriminate.
  intros E. apply bind_Ok_inv in E. destruct E as ([[n2 i2] c2] & E1 & E2). destruct (move_cluster_guard _ _ _ _ _ _ _ _ _ Hk E1) as (k2 & E3 & J2). rewrite E3. cbn [bind]. now apply IH.
Qed.
Lemma resize_guard : forall t b t', (forall nt, ch_size nt = 0 -> ch_bucket nt = b -> J 0 nt) -> cht_resize VB L guarded t b = Ok t' -> exists k', cht_resize_count VB L setc t b = Ok (k', t') /\ J k' t'.
Proof.
  intros t b t' H0 E. unfold cht_resize_count, cht_resize in *. apply bind_Ok_inv in E. destruct E as (nt & E1 & E2). rewrite E1. cbn [bind]. apply move_all_guard; auto. apply H0.
  - destruct (VB =? 0); [|injection E1 as <-; reflexivity]. unfold cht_set_value_width in E1. destruct (_ || _); [discriminate|]. injection E1 as <-. reflexivity.
  - destruct (VB =? 0); [|injection E1 as <-; reflexivity]. unfold cht_set_value_width in E1. destruct (_ || _); [discriminate|]. injection E1 as <-. reflexivity.
Qed.
End Guard.

Section Count.
Variables (kb VB VW L : nat).
Hypothesis Hkb : kb <= 63.
Hypothesis HL : 1 <= L <= 100.
Hypothesis HVW : 1 <= VW <= 63.
Hypothesis HVB : VB = 0 \/ VB = VW.
Notation rep := (rep kb VW L).

Lemma set_room_c : forall fuel t P k v, rep t P -> (k < 2 ^ N.of_nat kb)%N -> (v < 2 ^ N.of_nat VW)%N -> ch_used t < ch_max t ->
  exists t', cht_set_fuel_count VB L (S fuel) t k v = Ok (0, t') /\ rep t' (upP P k v) /\ ch_max t' = ch_max t /\ ch_bucket t' = ch_bucket t /\
    (((exists v0, P k v0) /\ ch_size t' = ch_size t) \/ ((forall v0, ~ P k v0) /\ ch_size t' = S (ch_size t))).
Proof.
  intros fuel t P k v R Hk Hv Hu. destruct (set_room_b kb VB VW L Hkb HL HVW HVB fuel t P k v R Hk Hv Hu) as (t' & E & H). exists t'. split; auto. rewrite <- set_same in E. revert E.
  cbn [cht_set_fuel_count]. unfold cht_is_filled. rewrite (proj2 (Nat.eqb_neq _ _)) by lia. cbn [bind fst snd]. destruct (cht_insert t k v); cbn [bind rmap snd]; congruence.
Qed.
Lemma twice_max : forall b c, b < c -> 2 * (2 ^ b * L / 100) <= 2 ^ c * L / 100.
Proof.
  intros b c H. assert (2 * 2 ^ b <= 2 ^ c) by (rewrite <- Nat.pow_succ_r'; apply Nat.pow_le_mono_r; lia). apply Nat.div_le_lower_bound; [lia|]. pose proof (Nat.mul_div_le (2 ^ b * L) 100 ltac:(lia)). nia.
Qed.
Lemma set_any_c : forall fuel t P k v, rep t P -> (k < 2 ^ N.of_nat kb)%N -> (v < 2 ^ N.of_nat VW)%N -> (N.of_nat (ch_size t) < 2 ^ 51)%N ->
  exists c t', cht_set_fuel_count VB L (S (S fuel)) t k v = Ok (c, t') /\ rep t' (upP P k v) /\
    ((c = 0 /\ ch_bucket t' = ch_bucket t /\ ch_max t' = ch_max t) \/ (c = ch_size t /\ ch_size t = ch_max t /\ 2 * ch_bucket t <= ch_bucket t')) /\
    (((exists v0, P k v0) /\ ch_size t' = ch_size t) \/ ((forall v0, ~ P k v0) /\ ch_size t' = S (ch_size t))).
Proof.
  intros fuel t P k v Rt Hk Hv Hs. destruct (rep_facts kb VB VW L Hkb HL HVW HVB t P Rt) as (b & Hb & Bt & Mt & M1 & Su & Le & _ & _ & Wb).
  destruct (Nat.eq_dec (ch_used t) (ch_max t)) as [Fi|].
  2:{ destruct (set_room_c (S fuel) t P k v Rt Hk Hv ltac:(lia)) as (t' & E' & R' & M' & B' & S'). exists 0, t'. split; auto. split; auto. }
  set (f1 := S fuel). cbn [cht_set_fuel_count]. unfold cht_is_filled. rewrite (proj2 (Nat.eqb_eq _ _)) by auto. unfold cht_reserve_with_count. change (2 ^ 51)%N with 2251799813685248%N in Hs.
  rewrite size_twice_small by (change (2 ^ 63)%N with 9223372036854775808%N; lia). rewrite (proj2 (Nat.leb_gt _ _)) by lia.
  destruct (reserve_bucket kb VB VW L Hkb HL HVW HVB (ch_size t * 2)) as (bb & Eb & Hbb & Hlt & Hlo); [lia|change (2 ^ 52)%N with 4503599627370496%N; lia|].
  apply bind_Ok_inv in Eb. destruct Eb as (bn & Eb & En). injection En as En. cbv zeta. rewrite Eb. cbn [bind]. rewrite En.
  assert (Dm : b < bb /\ ch_max t < 2 ^ bb * L / 100).
  { rewrite Mt. apply (double_bucket kb VB VW L Hkb HL HVW HVB); [rewrite <- Mt; auto|]. rewrite Su, Fi, Mt in Hlt. now rewrite (Nat.mul_comm 2). }
  set (test := fun c nt nt' => (c =? 0) && (ch_size nt' =? S (ch_size nt))).
  destruct (resize_ok kb VB VW L Hkb HL HVW HVB (guarded (cht_set_fuel_count VB L f1) test) (fun nt => ch_max t < ch_max nt /\ ch_bucket nt = 2 ^ bb) t P bb Rt Hbb ltac:(lia) ltac:(lia)) as (t1 & E1 & R1 & (G1 & G1') & S1).
  - intros nt Bn _ ->. split; [apply Dm|auto].
  - intros nt P' k' v' Rn (Gn & Gn') Hk' Hv' Fr Lt. destruct (rep_facts kb VB VW L Hkb HL HVW HVB _ _ Rn) as (_ & _ & _ & _ & _ & Sun & _ & _).
    destruct (set_room_c fuel nt P' k' v' Rn Hk' Hv' ltac:(lia)) as (nt' & E' & R' & M' & B' & [((v0 & C) & _)|(_ & S')]); [exfalso; eapply Fr; eauto|]. exists nt'. unfold guarded. fold f1 in E'. rewrite E'. cbn [bind fst snd]. unfold test. rewrite S', (Nat.eqb_refl (S (ch_size nt))). cbn [Nat.eqb andb]. split; auto. split; auto. split; auto. split; lia.
  - apply (resize_guard VB L _ test (fun k nt => k = ch_size nt)) in E1; [|intros k0 nt c nt' -> T; unfold test in T; apply andb_prop in T; destruct T as (T1 & T2); apply Nat.eqb_eq in T1, T2; lia|intros nt H1 _; auto].
    destruct E1 as (c & E1 & Ec). rewrite E1. cbn [bind fst snd]. destruct (rep_facts kb VB VW L Hkb HL HVW HVB _ _ R1) as (_ & _ & _ & _ & _ & Su1 & _ & _).
    destruct (set_room_c 0 t1 P k v R1 Hk Hv ltac:(lia)) as (t' & E' & R' & _ & B' & S'). cbn [cht_set_fuel_count] in E'. unfold cht_is_filled in E'. rewrite (proj2 (Nat.eqb_neq _ _)) in E' by lia. cbn [bind fst snd] in E'.
    apply bind_Ok_inv in E'. destruct E' as (t2 & E' & E2). injection E2 as ->. rewrite E'. cbn [bind]. exists c, t'. split; auto. split; auto. rewrite S1 in S'. split; auto. right. split; [lia|]. split; [lia|]. rewrite B', G1', Bt, <- Nat.pow_succ_r'. apply Nat.pow_le_mono_r; lia.
Qed.
Lemma reserve_any_c : forall t P n, rep t P -> (N.of_nat (ch_size t) < 2 ^ 51)%N -> (N.of_nat n < 2 ^ 52)%N -> n <= ch_size t \/ room kb L n ->
  exists c t', cht_reserve_count VB L t n = Ok (c, t') /\ rep t' P /\ ch_size t' = ch_size t /\ ((n <= ch_size t /\ c = 0 /\ t' = t) \/ (ch_size t < n /\ ch_size t <= c <= 2 * ch_size t)).
Proof.
  intros t P n Rt Hs Hn Hr. unfold cht_reserve_count, cht_reserve_with_count. destruct (Nat.leb_spec n (ch_size t)); [exists 0, t; split; [auto|split; [auto|split; [auto|left; auto]]]|]. destruct Hr as [Hr|Hr]; [lia|].
  destruct (reserve_bucket kb VB VW L Hkb HL HVW HVB n) as (bb & Eb & Hbb & Hlt & Hlo); [lia|auto|].
  apply bind_Ok_inv in Eb. destruct Eb as (bn & Eb & En). injection En as En. cbv zeta. rewrite Eb. cbn [bind]. rewrite En.
  set (test := fun c nt nt' => (ch_size nt' =? S (ch_size nt)) && ((c =? 0) && (ch_bucket nt' =? ch_bucket nt) || (ch_bucket nt =? 2 ^ bb) && (c =? ch_size nt) && negb (ch_bucket nt' =? 2 ^ bb))).
  assert (Two : ch_size t <= 2 * (2 ^ bb * L / 100)).
  { assert (99 * n < L * 2 ^ bb) by (pose proof (Nat.div_mod (n * 99) L ltac:(lia)); pose proof (Nat.mod_upper_bound (n * 99) L ltac:(lia)); nia). pose proof (Nat.div_mod (2 ^ bb * L) 100 ltac:(lia)). pose proof (Nat.mod_upper_bound (2 ^ bb * L) 100 ltac:(lia)). nia. }
  destruct (resize_ok kb VB VW L Hkb HL HVW HVB (guarded (cht_set_count VB L) test) (fun nt => ch_bucket nt = 2 ^ bb \/ ch_bucket nt <> 2 ^ bb /\ ch_size t <= ch_max nt) t P bb Rt Hbb (room_bb kb L HL n bb Hr ltac:(lia) Hlt) (reserve_max kb VB VW L Hkb HL HVW HVB n bb ltac:(lia) Hlt)) as (t1 & E1 & R1 & _ & S1).
  - auto.
  - intros nt P' k' v' Rn Bn Hk' Hv' Fr Lt. destruct (rep_facts kb VB VW L Hkb HL HVW HVB _ _ Rn) as (b & Hb & Bb & Mb & M1 & Sun & Le & _).
    destruct (set_any_c 2 nt P' k' v' Rn Hk' Hv' ltac:(lia)) as (c & nt' & E' & R' & C' & [((v0 & C) & _)|(_ & S')]); [exfalso; eapply Fr; eauto|]. exists nt'. unfold guarded, cht_set_count. rewrite E'. cbn [bind fst snd]. unfold test. rewrite S', (Nat.eqb_refl (S (ch_size nt))). cbn [andb].
    destruct C' as [(-> & B' & M')|(-> & Fu & B')].
    + rewrite B', (Nat.eqb_refl (ch_bucket nt)). cbn [Nat.eqb andb orb]. split; auto. split; auto. split; auto. rewrite M'. auto.
    + destruct Bn as [Bn|(Bn & Mn)]; [|exfalso; lia]. assert (Nb : ch_bucket nt' <> 2 ^ bb) by (assert (2 ^ bb <> 0) by (apply Nat.pow_nonzero; lia); lia). rewrite (proj2 (Nat.eqb_neq _ _) Nb), Bn, !Nat.eqb_refl. cbn [andb negb]. rewrite orb_true_r. split; auto. split; auto. split; auto. right. split; auto.
      destruct (rep_facts kb VB VW L Hkb HL HVW HVB _ _ R') as (b' & Hb' & Bb' & Mb' & _). rewrite Mb'. transitivity (2 * (2 ^ bb * L / 100)); auto. apply twice_max. apply Nat.pow_lt_mono_r_iff with 2; [lia|]. rewrite <- Bb'. assert (2 ^ bb <> 0) by (apply Nat.pow_nonzero; lia). lia.
  - apply (resize_guard VB L _ test (fun k nt => ch_bucket nt = 2 ^ bb /\ k = ch_size nt \/ ch_bucket nt <> 2 ^ bb /\ ch_size nt <= k <= 2 * ch_size nt)) in E1.
    + destruct E1 as (c & E1 & Ec). exists c, t1. split; auto. split; auto. split; auto. right. split; auto. destruct Ec as [(_ & ->)|(_ & Ec)]; lia.
    + intros k0 nt c nt' J T. unfold test in T. apply andb_prop in T. destruct T as (T1 & T2). apply Nat.eqb_eq in T1. apply orb_prop in T2. destruct T2 as [T2|T2].
      * apply andb_prop in T2. destruct T2 as (T2 & T3). apply Nat.eqb_eq in T2, T3. rewrite T3, T1, T2. destruct J as [(J1 & J2)|(J1 & J2)]; [left|right]; split; auto; lia.
      * apply andb_prop in T2. destruct T2 as (T2 & T4). apply andb_prop in T2. destruct T2 as (T2 & T3). apply Nat.eqb_eq in T2, T3. apply negb_true_iff, Nat.eqb_neq in T4. right. split; auto. destruct J as [(J1 & J2)|(J1 & J2)]; [lia|contradiction].
    + intros nt H1 H2. left. auto.
Qed.

(** the elements moved by set are paid for by the growth of the table and by the calls of reserve *)
Definition paid_for (a r : nat) (t : cht) : Prop := a <= 2 * r \/ exists b0, a <= 2 * (2 ^ b0 * L / 100) + 2 * r /\ 2 ^ b0 < ch_bucket t /\ 2 ^ b0 * L / 100 <= ch_size t.
Lemma run_c : forall bb ops, bb <= 60 -> kb <= 59 + bb -> 1 <= 2 ^ bb * L / 100 -> (N.of_nat (length ops) < 2 ^ 50)%N -> Forall (map_op_in kb VW) ops -> Forall (rooms kb L) ops ->
  exists a r t, cht_run_count VB L kb (2 ^ bb) VW ops = Ok (a, r, t) /\ rep t (mapP ops) /\ ch_size t = distinct_keys ops /\ ch_size t <= length ops /\ paid_for a r t /\ r <= 2 * reserves ops * ch_size t.
Proof.
  intros bb ops Hbb Hwid Hmax. unfold cht_run_count. destruct (start_rep kb VB VW L Hkb HL HVW HVB bb Hbb Hwid Hmax) as (t0 & E0 & R0 & S0 & B0). rewrite E0. cbn [bind]. clear E0.
  induction ops as [|o ops IH] using rev_ind; intros Hn Ho Hr.
  - exists 0, 0, t0. split; auto. split; [|split; [auto|split; [rewrite S0; auto|split; [left; auto|lia]]]]. apply CHTMain.rep_ext with (1 := R0). intros k v _. unfold mapP. simpl. split; [discriminate|tauto].
  - rewrite app_length in Hn. simpl in Hn. rewrite Forall_app in Ho, Hr. destruct Ho as (Ho & Ho1). destruct Hr as (Hr & Hr1). inversion Ho1; subst. apply Forall_inv in Hr1. destruct IH as (a & r & t & E & R & S & Le & Pa & Rr); [lia|auto|auto|].
    rewrite foldM_app, E. cbn [bind foldM]. change (2 ^ 50)%N with 1125899906842624%N in *.
    assert (Er : reserves (ops ++ [o]) = reserves ops + reserves [o]) by (unfold reserves; rewrite filter_app, app_length; reflexivity). rewrite Er. clear Er.
    destruct o as [k v|n]; simpl in H1; cbn [cht_step_count].
    + destruct H1 as (Hk & Hv). destruct (set_any_c 2 t (mapP ops) k v R Hk Hv) as (c & t' & E' & R' & C' & S'); [change (2 ^ 51)%N with 2251799813685248%N; lia|].
      unfold cht_set_count. rewrite E'. cbn [bind fst snd]. exists (a + c), r, t'. split; auto.
      assert (Mo : ch_size t <= ch_size t') by (destruct S' as [(_ & S')|(_ & S')]; lia).
      split; [|split; [|split; [|split]]].
      * apply CHTMain.rep_ext with (1 := R'). intros k' v' _. unfold mapP. rewrite last_set_app. unfold upP. destruct (N.eqb_spec k' k) as [->|]; [|tauto]. split; [congruence|intros ->; auto].
      * unfold distinct_keys. rewrite keys_app. simpl map_keys. rewrite (nodup_snoc kb VB VW L Hkb HL HVW HVB). fold (distinct_keys ops). rewrite <- S.
        pose proof (last_set_in VB VW L HL HVW HVB k ops) as LI. destruct (in_dec N.eq_dec k (map_keys ops)) as [I|I].
        -- destruct S' as [(_ & ->)|(No & _)]; [lia|]. exfalso. apply LI in I. destruct I as (w & Ew). apply (No w Ew).
        -- destruct S' as [((w & Ew) & _)|(_ & ->)]; [|lia]. exfalso. apply I, LI. exists w. exact Ew.
      * rewrite app_length. simpl length. destruct S' as [(_ & S')|(_ & S')]; lia.
      * destruct (rep_facts kb VB VW L Hkb HL HVW HVB t _ R) as (b & Hb & Bt & Mt & M1 & Su & Lu & _). destruct C' as [(-> & B' & _)|(-> & Fu & B')].
        -- rewrite Nat.add_0_r. destruct Pa as [Pa|(b0 & P1 & P2 & P3)]; [now left|]. right. exists b0. rewrite B'. split; auto. split; auto. lia.
        -- right. exists b. rewrite Bt in B'. assert (2 ^ b <> 0) by (apply Nat.pow_nonzero; lia). split; [|split; [lia|]].
           ++ rewrite <- Mt. destruct Pa as [Pa|(b0 & P1 & P2 & P3)]; [lia|]. assert (2 * (2 ^ b0 * L / 100) <= ch_max t); [|lia]. rewrite Mt. apply twice_max. apply Nat.pow_lt_mono_r_iff with 2; lia.
           ++ rewrite <- Mt. lia.
      * assert (2 * reserves ops * ch_size t <= 2 * reserves ops * ch_size t') by (apply Nat.mul_le_mono_l; exact Mo). unfold reserves at 2. cbn [filter length]. rewrite Nat.add_0_r. lia.
    + destruct (reserve_any_c t (mapP ops) n R) as (c & t' & E' & R' & S' & C');
        [change (2 ^ 51)%N with 2251799813685248%N; lia|change (2 ^ 52)%N with 4503599627370496%N; lia|destruct Hr1 as [->|]; [left; lia|auto]|].
      rewrite E'. cbn [bind fst snd]. exists a, (r + c), t'. split; auto. split; [|split; [|split; [|split]]].
      * apply CHTMain.rep_ext with (1 := R'). intros k' v' _. unfold mapP. now rewrite last_set_app.
      * unfold distinct_keys. rewrite keys_app. simpl map_keys. rewrite app_nil_r. fold (distinct_keys ops). lia.
      * rewrite app_length. lia.
      * destruct C' as [(_ & -> & ->)|(_ & C')]; [now rewrite Nat.add_0_r|]. left. destruct Pa as [Pa|(b0 & P1 & P2 & P3)]; lia.
      * unfold reserves at 2. cbn [filter length]. rewrite S'. destruct C' as [(_ & -> & _)|(_ & C')]; lia.
Qed.
End Count.

Theorem rehash_cost : forall kb VB VW L bb ops, kb <= 60 -> 1 <= L <= 99 -> 1 <= VW <= 63 -> VB = 0 \/ VB = VW ->
  1 <= bb <= 60 -> 1 <= 2 ^ bb * L / 100 -> (N.of_nat (length ops) < 2 ^ 50)%N -> Forall (map_op_in kb VW) ops ->
  exists a r t, cht_run VB L kb (2 ^ bb) VW ops = Ok t /\ cht_run_count VB L kb (2 ^ bb) VW ops = Ok (a, r, t) /\ a <= 2 * distinct_keys ops + 2 * r /\ r <= 2 * reserves ops * distinct_keys ops.
Proof.
  intros kb VB VW L bb ops Hkb HL HVW HVB Hbb Hmax Hn Ho. destruct (run_c kb VB VW L ltac:(lia) ltac:(lia) HVW HVB bb ops ltac:(lia) ltac:(lia) Hmax Hn Ho (rooms_60 kb L ops Hkb ltac:(lia))) as (a & r & t & E & _ & S & _ & Pa & Rr).
  exists a, r, t. split; [|split; auto; rewrite <- S; split; auto; destruct Pa as [Pa|(b0 & P1 & _ & P3)]; lia].
  unfold cht_run_count in E. unfold cht_run. destruct (cht_start VB L kb (2 ^ bb) VW) as [t0| | |]; cbn [bind] in *; try discriminate.
  assert (G : forall ops st, rmap snd (foldM (cht_step_count VB L) ops st) = foldM (cht_step VB L) ops (snd st)).
  { clear. induction ops as [|o ops IH]; intros st; cbn [foldM]; auto. rewrite <- step_same. destruct (cht_step_count VB L st o); cbn [bind rmap]; auto. }
  specialize (G ops (0, 0, t0)). rewrite E in G. cbn [rmap snd] in G. auto.
Qed.

(** without reserve nothing but the growth has to be paid for; with it, an entry written over again and again moves all the others *)
Lemma step_add : forall VB L a r t o, cht_step_count VB L (a, r, t) o = rmap (fun x => (a + fst (fst x), r + snd (fst x), snd x)) (cht_step_count VB L (0, 0, t) o).
Proof.
  intros VB L a r t [k v|n]; cbn [cht_step_count].
  - destruct (cht_set_count VB L t k v) as [[c t1]| | |]; cbn [bind rmap fst snd]; auto; repeat f_equal; lia.
  - destruct (cht_reserve_count VB L t n) as [[c t1]| | |]; cbn [bind rmap fst snd]; auto; repeat f_equal; lia.
Qed.
Lemma steps_add : forall VB L ops a r t, foldM (cht_step_count VB L) ops (a, r, t) = rmap (fun x => (a + fst (fst x), r + snd (fst x), snd x)) (foldM (cht_step_count VB L) ops (0, 0, t)).
Proof.
  intros VB L. induction ops as [|o ops IH]; intros a r t; cbn [foldM]; [cbn; now rewrite (Nat.add_0_r a), (Nat.add_0_r r)|]. rewrite step_add. destruct (cht_step_count VB L (0, 0, t) o) as [[[a1 r1] t1]| | |]; cbn [bind rmap fst snd]; auto.
  rewrite IH, (IH a1 r1). destruct (foldM (cht_step_count VB L) ops (0, 0, t1)) as [[[a2 r2] t2]| | |]; cbn; auto. now rewrite !Nat.add_assoc.
Qed.
Definition six : list map_op := [MapSet 0 1; MapSet 1 1; MapSet 2 1; MapSet 3 1; MapSet 4 1; MapSet 5 1]%N.
Definition again : list map_op := [MapSet 5 1; MapReserve 7]%N.
Definition t6 : cht := CHT 3 8 3 6 2 (FV 4 8 [1118481%N]) (FV 1 8 [63%N]) 0 6 6.
Lemma six_run : (do t <- cht_start 1 87 3 8 1; foldM (cht_step_count 1 87) six (0, 0, t)) = Ok (0, 0, t6).
Proof. vm_compute. reflexivity. Qed.
Lemma again_run : foldM (cht_step_count 1 87) again (0, 0, t6) = Ok (6, 6, t6).
Proof. vm_compute. reflexivity. Qed.
Lemma again_runs : forall n, foldM (cht_step_count 1 87) (concat (repeat again n)) (0, 0, t6) = Ok (6 * n, 6 * n, t6).
Proof.
  induction n as [|n IH]; [reflexivity|]. cbn [repeat concat]. rewrite foldM_app, again_run. cbn [bind]. rewrite steps_add, IH. unfold rmap. cbn [bind fst snd]. replace (6 * S n) with (6 + 6 * n) by lia. reflexivity.
Qed.
Lemma six_again : forall n, cht_run_count 1 87 3 8 1 (six ++ concat (repeat again n)) = Ok (6 * n, 6 * n, t6).
Proof.
  intros n. unfold cht_run_count. pose proof six_run as E. destruct (cht_start 1 87 3 8 1) as [t0| | |]; cbn [bind] in *; try discriminate. rewrite foldM_app, E. cbn [bind]. apply again_runs.
Qed.
Lemma six_keys : forall n, distinct_keys (six ++ concat (repeat again n)) = 6.
Proof.
  intros n. unfold distinct_keys. assert (Hi : forall x, In x (map_keys (six ++ concat (repeat again n))) <-> In x (map_keys six)).
  { intros x. rewrite keys_app, in_app_iff. split; [|auto]. intros [H|H]; auto. induction n as [|n IH]; [destruct H|]. cbn [repeat concat] in H. rewrite keys_app, in_app_iff in H. destruct H as [[<-|[]]|H]; [cbn; tauto|auto]. }
  transitivity (length (nodup N.eq_dec (map_keys six))); [|reflexivity]. apply Nat.le_antisymm; apply NoDup_incl_length; try apply NoDup_nodup; intros x; rewrite !nodup_In; apply Hi.
Qed.
Theorem rehash_reserve : forall n, exists ops a r t, cht_run_count 1 87 3 8 1 ops = Ok (a, r, t) /\ Forall (map_op_in 3 1) ops /\ distinct_keys ops = 6 /\ reserves ops = n /\ a = 6 * n.
Proof.
  intros n. exists (six ++ concat (repeat again n)), (6 * n), (6 * n), t6. split; [apply six_again|]. split; [|split; [apply six_keys|split; auto]].
  - apply Forall_app. split; [repeat constructor|]. induction n as [|n IH]; cbn [repeat concat]; [constructor|]. apply Forall_app. split; auto. repeat constructor.
  - unfold reserves. rewrite filter_app, app_length. cbn [six filter length plus]. induction n as [|n IH]; auto. cbn [repeat concat]. rewrite filter_app, app_length, IH. reflexivity.
Qed.
