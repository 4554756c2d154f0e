(** A CHT whose number of buckets times its load factor is below one: it never grows by itself, and works until it is completely full *)
From Coq Require Import List NArith ZArith Arith Bool Lia.
From Verif Require Import Base Spec Spec4 Spec15 Spec21 BitUtilModel FitVectorModel FitVectorProof HashModel CHTModel CHTRing CHTShift CHTWord CHTProof CHTInsert CHTMain CHTResize CHTRun CHTLimits CHTFull CHTWide.
Import ListNotations.
Local Open Scope nat_scope.

Lemma never_prefix : forall a b, never_reserves (a ++ b) -> never_reserves a.
Proof. intros a b H pre n post E. apply (H pre n (post ++ b)). rewrite E, <- app_assoc. reflexivity. Qed.
Lemma never_snoc : forall ops o, never_reserves ops -> (forall n, o = MapReserve n -> n <= distinct_keys ops) -> never_reserves (ops ++ [o]).
Proof.
  intros ops o H Ho pre n post E. destruct post as [|x post _] using rev_ind.
  - apply app_inj_tail in E. destruct E as (<- & ->). auto.
  - rewrite app_comm_cons, app_assoc in E. apply app_inj_tail in E. destruct E as (E & _). eapply H; eauto.
Qed.
Lemma distinct_snoc : forall ops k v, distinct_keys (ops ++ [MapSet k v]) = distinct_keys ops + (if in_dec N.eq_dec k (map_keys ops) then 0 else 1).
Proof. intros. unfold distinct_keys. rewrite keys_app. simpl map_keys. apply (nodup_snoc 0 0 1 1 ltac:(lia) ltac:(lia) ltac:(lia) (or_introl eq_refl)). Qed.
Lemma distinct_reserve : forall ops n, distinct_keys (ops ++ [MapReserve n]) = distinct_keys ops.
Proof. intros. unfold distinct_keys. rewrite keys_app. simpl map_keys. now rewrite app_nil_r. Qed.

Section Load.
Variables (kb VB VW L bb : nat).
Hypothesis Hkb : kb <= 63.
Hypothesis HL : L <= 99.
Hypothesis HVW : 1 <= VW <= 63.
Hypothesis HVB : VB = 0 \/ VB = VW.
Hypothesis Hbb : bb <= 60.
Hypothesis Hwid : kb <= 59 + bb.
Hypothesis Hmax : 2 ^ bb * L / 100 = 0.
Notation rep := (rep kb VW L).

Definition small (t : cht) (P : N -> N -> Prop) : Prop := exists l vs H, base kb VW L t l vs H /\ (forall z, fD l z = false) /\ ch_size t = ch_used t /\ ch_bucket t = 2 ^ bb /\ ch_max t = 0 /\
  forall k v, (k < 2 ^ N.of_nat kb)%N -> (P k v <-> holds kb l vs H k v).
Lemma small_ext : forall t P P', small t P -> (forall k v, (k < 2 ^ N.of_nat kb)%N -> (P' k v <-> P k v)) -> small t P'.
Proof. clear. intros t P P' (l & vs & H & G & D & S & B & M & E) EP. exists l, vs, H. do 5 (split; auto). intros k v Hk. rewrite EP by auto. now apply E. Qed.
Lemma start_small : exists t, cht_start VB L kb (2 ^ bb) VW = Ok t /\ small t (fun _ _ => False) /\ ch_size t = 0.
Proof.
  clear HL. destruct (start_base kb VB VW L Hkb HVW HVB bb Hbb Hwid) as (t & E & S0 & U0 & B0 & M0 & l & vs & H & G & D & N). exists t. split; auto. split; auto.
  exists l, vs, H. split; auto. split; auto. split; [congruence|]. split; auto. split; [congruence|]. intros k v _. split; [tauto|apply N].
Qed.
(** set does not grow the table *)
Lemma set_insert : forall t P k v, small t P -> cht_set VB L t k v = cht_insert t k v.
Proof.
  intros t P k v (l & vs & H & G & D & S & B & M & E). unfold cht_set. cbn [cht_set_fuel]. unfold cht_is_filled. rewrite M. destruct (Nat.eqb_spec (ch_used t) 0) as [U|U]; [|reflexivity].
  rewrite S, U. unfold cht_reserve_with. change (size_twice 0) with 0. reflexivity.
Qed.
Lemma set_small : forall t P k v, small t P -> (k < 2 ^ N.of_nat kb)%N -> (v < 2 ^ N.of_nat VW)%N -> (exists v0, P k v0) \/ ch_size t < 2 ^ bb ->
  exists t', cht_set VB L t k v = Ok t' /\ small t' (upP P k v) /\ (((exists v0, P k v0) /\ ch_size t' = ch_size t) \/ ((forall v0, ~ P k v0) /\ ch_size t' = S (ch_size t))).
Proof.
  clear HL HVW HVB Hwid Hmax Hbb. intros t P k v St Hk Hv HR. rewrite (set_insert t P k v St). destruct St as (l & vs & H & G & D & Sz & B & M & E).
  assert (HR' : (exists v0, holds kb l vs H k v0) \/ ch_used t < ch_bucket t) by (destruct HR as [(v0 & Hv0)|Lt]; [left; exists v0; now apply E|right; lia]).
  destruct (insert_base kb VW L Hkb t l vs H G k v Hk Hv HR') as (t' & E' & B' & C' & l' & vs' & H' & G' & D' & P'). exists t'. split; auto.
  destruct (used_small kb VW L t l vs H G) as (Us & Bs).
  assert (Su : size_up (ch_size t) = S (ch_size t)). { apply size_up_small. rewrite Sz. change (2 ^ 63)%N with 9223372036854775808%N. change (2 ^ 60)%N with 1152921504606846976%N in Bs. lia. }
  assert (Nd : forall z, fD l' z = false). { intros z. destruct (fD l' z) eqn:Dz; auto. apply D' in Dz. now rewrite D in Dz. }
  assert (M' : ch_max t' = 0) by (rewrite <- M, (g_max _ _ _ _ _ _ _ G), (g_max _ _ _ _ _ _ _ G'), B'; reflexivity).
  assert (Ep : forall k' v', (k' < 2 ^ N.of_nat kb)%N -> (upP P k v k' v' <-> holds kb l' vs' H' k' v')).
  { intros k' v' Hk'. rewrite P' by auto. unfold upP. destruct (k' =? k)%N; [tauto|]. now apply E. }
  destruct C' as [((v0 & C1) & C2 & C3)|(C1 & C2 & C3)].
  - assert (Sz' : ch_size t' = ch_size t) by (destruct C3 as [|((z & Dz) & _)]; auto; rewrite D in Dz; discriminate).
    split; [|left; split; auto; exists v0; now apply E]. exists l', vs', H'. do 2 (split; auto). split; [congruence|]. split; [congruence|auto].
  - rewrite Su in C3. split; [|right; split; auto; intros v0 Pv; apply (C1 v0); now apply E]. exists l', vs', H'. do 2 (split; auto). split; [congruence|]. split; [congruence|auto].
Qed.
(** the set that does not end *)
Lemma set_stuck : forall t P k v, small t P -> (k < 2 ^ N.of_nat kb)%N -> (forall v0, ~ P k v0) -> ch_size t = 2 ^ bb ->
  cht_set VB L t k v = Fuel /\ forall fuel i, i < ch_bucket t -> find_null fuel t i = Fuel.
Proof.
  clear HL HVW HVB Hwid Hmax Hbb. intros t P k v St Hk No Fu. rewrite (set_insert t P k v St). destruct St as (l & vs & H & G & D & Sz & B & M & E). split.
  - apply (insert_full kb VW L Hkb t l vs H); auto; [congruence|]. intros v0 Hv0. apply (No v0). now apply E.
  - apply (full_endless kb VW L t l vs H); auto. congruence.
Qed.
Lemma reserve_small : forall t P n, 1 <= L -> small t P -> (N.of_nat (ch_size t) < 2 ^ 51)%N -> (N.of_nat n < 2 ^ 52)%N -> ch_size t < n -> room kb L n ->
  exists t', cht_reserve VB L t n = Ok t' /\ rep t' P /\ ch_size t' = ch_size t.
Proof.
  clear Hbb Hwid Hmax. intros t P n L1 (l & vs & H & G & D & Sz & B & M & E) Hs Hn Lt Hr. assert (HL1 : 1 <= L <= 100) by (clear - HL L1; lia).
  unfold cht_reserve, cht_reserve_with. rewrite (proj2 (Nat.leb_gt _ _)) by auto.
  destruct (reserve_bucket kb VB VW L Hkb HL1 HVW HVB n) as (b1 & Eb & Hb1 & Hlt & _); [lia|auto|]. apply bind_Ok_inv in Eb. destruct Eb as (bn & Eb & En). injection En as En. cbv zeta. rewrite Eb. cbn [bind]. rewrite En.
  assert (LU : forall z, fL l z = fU l z) by (intros z; unfold fL; now rewrite D, andb_true_r).
  assert (Cl : cnt (fL l) 0 (Z.of_nat (ch_bucket t)) = ch_size t) by (rewrite Sz, (g_used _ _ _ _ _ _ _ G); apply cnt_ext; auto).
  destruct (resize_base kb VB VW L Hkb HL1 HVW HVB (cht_set VB L) (fun _ => True) t l vs H b1 G Hb1 (room_bb kb L HL1 n b1 Hr ltac:(lia) Hlt) (reserve_max kb VB VW L Hkb HL1 HVW HVB n b1 ltac:(lia) Hlt)) as (t' & E' & R' & _ & S'); auto.
  - rewrite Cl. intros nt P' k' v' Rn _ Hk' Hv' Fr Lt'. destruct (set_any kb VB VW L Hkb HL1 HVW HVB 2 nt P' k' v' Rn Hk' Hv' ltac:(lia)) as (nt' & E' & R' & [((v0 & C) & _)|(_ & S')]); [exfalso; eapply Fr; eauto|]. exists nt'. auto.
  - exists t'. split; auto. split; [|congruence]. apply rep_ext with (1 := R'). intros k v Hk. rewrite E by auto. unfold holds. split; intros (z & Z); exists z; rewrite LU in *; auto.
Qed.

Lemma run_small : forall ops, (N.of_nat (length ops) < 2 ^ 50)%N -> Forall (map_op_in kb VW) ops -> never_reserves ops \/ 1 <= L /\ Forall (reserve_fits kb L) ops -> fills_at_most (2 ^ bb) ops ->
  exists t, cht_run VB L kb (2 ^ bb) VW ops = Ok t /\ ch_size t = distinct_keys ops /\ ch_size t <= length ops /\
    (never_reserves ops /\ small t (mapP ops) \/ 1 <= L /\ ~ never_reserves ops /\ rep t (mapP ops)).
Proof.
  intros ops. unfold cht_run. destruct start_small as (t0 & E0 & R0 & S0). rewrite E0. cbn [bind]. clear E0.
  induction ops as [|o ops IH] using rev_ind; intros Hn Ho Hr Hf.
  - exists t0. split; auto. split; [exact S0|]. split; [lia|]. left. split; [intros pre n post E; destruct pre; discriminate|]. apply small_ext with (1 := R0). intros k v _. unfold mapP. simpl. split; [discriminate|tauto].
  - pose proof Hn as Hn0. rewrite app_length in Hn. simpl in Hn. rewrite Forall_app in Ho. destruct Ho as (Ho & Ho1). apply Forall_inv in Ho1.
    destruct IH as (t & E & S & Le & C); [lia|auto| | |].
    { destruct Hr as [Hr|(L1 & Hr)]; [left; eapply never_prefix; eauto|right]. rewrite Forall_app in Hr. tauto. }
    { intros pre post Ep Np. apply (Hf pre (post ++ [o])); auto. now rewrite Ep, app_assoc. }
    rewrite foldM_app, E. cbn [bind foldM]. rewrite app_length. simpl length. change (2 ^ 50)%N with 1125899906842624%N in *.
    destruct o as [k v|n]; simpl in Ho1; cbn [cht_step].
    + destruct Ho1 as (Hk & Hv).
      assert (Sn : forall n, MapSet k v = MapReserve n -> n <= distinct_keys ops) by discriminate.
      assert (Nk : (exists w, mapP ops k w) <-> In k (map_keys ops)) by (unfold mapP; apply (last_set_in 0 1 1 ltac:(lia) ltac:(lia) (or_introl eq_refl))).
      assert (Q : exists t', cht_set VB L t k v = Ok t' /\ (never_reserves ops /\ small t' (upP (mapP ops) k v) \/ 1 <= L /\ ~ never_reserves ops /\ rep t' (upP (mapP ops) k v)) /\
        (((exists v0, mapP ops k v0) /\ ch_size t' = ch_size t) \/ ((forall v0, ~ mapP ops k v0) /\ ch_size t' = Datatypes.S (ch_size t)))).
      { destruct C as [(Nr & Sm)|(L1 & Nr & R)].
        - destruct (set_small t (mapP ops) k v Sm Hk Hv) as (t' & E' & Sm' & S').
          + destruct (in_dec N.eq_dec k (map_keys ops)) as [I|I]; [left; now apply Nk|right]. specialize (Hf (ops ++ [MapSet k v]) [] ltac:(now rewrite app_nil_r) (never_snoc ops _ Nr Sn)). rewrite distinct_snoc in Hf.
            destruct (in_dec N.eq_dec k (map_keys ops)); [contradiction|]. lia.
          + exists t'. split; auto.
        - destruct (set_any kb VB VW L Hkb ltac:(lia) HVW HVB 2 t (mapP ops) k v R Hk Hv) as (t' & E' & R' & S'); [change (2 ^ 51)%N with 2251799813685248%N; lia|]. exists t'. split; auto. }
      destruct Q as (t' & E' & R' & S'). rewrite E'. cbn [bind]. exists t'. split; auto.
      assert (Sd : ch_size t' = distinct_keys (ops ++ [MapSet k v])).
      { rewrite distinct_snoc. destruct (in_dec N.eq_dec k (map_keys ops)) as [I|I].
        - destruct S' as [(_ & ->)|(No & _)]; [lia|]. exfalso. apply Nk in I. destruct I as (w & Ew). apply (No w Ew).
        - destruct S' as [((w & Ew) & _)|(_ & ->)]; [|lia]. exfalso. apply I, Nk. eauto. }
      split; auto. split; [destruct S' as [(_ & ->)|(_ & ->)]; lia|].
      assert (Up : forall k' v', mapP (ops ++ [MapSet k v]) k' v' <-> upP (mapP ops) k v k' v').
      { intros k' v'. unfold mapP. rewrite last_set_app. unfold upP. destruct (N.eqb_spec k' k) as [->|]; [|tauto]. split; [congruence|intros ->; auto]. }
      destruct R' as [(Nr & Sm)|(L1 & Nr & R)]; [left|right].
      * split; [apply never_snoc; auto|]. apply small_ext with (1 := Sm). auto.
      * split; auto. split; [intros Nn; apply Nr; eapply never_prefix; eauto|]. apply rep_ext with (1 := R). auto.
    + assert (Up : forall k' v', mapP (ops ++ [MapReserve n]) k' v' <-> mapP ops k' v') by (intros k' v'; unfold mapP; now rewrite last_set_app).
      rewrite distinct_reserve. destruct (Nat.le_gt_cases n (ch_size t)) as [Ln|Gn].
      * assert (Er : cht_reserve VB L t n = Ok t) by (unfold cht_reserve, cht_reserve_with; now rewrite (proj2 (Nat.leb_le _ _) Ln)). rewrite Er. cbn [bind]. exists t. split; auto. split; auto. split; [lia|].
        destruct C as [(Nr & Sm)|(L1 & Nr & R)]; [left|right].
        -- split; [apply never_snoc; auto; intros m Em; injection Em as <-; lia|]. apply small_ext with (1 := Sm). auto.
        -- split; auto. split; [intros Nn; apply Nr; eapply never_prefix; eauto|]. apply rep_ext with (1 := R). auto.
      * assert (Nn : ~ never_reserves (ops ++ [MapReserve n])). { intros Nn. specialize (Nn ops n [] eq_refl). lia. }
        destruct Hr as [Hr|(L1 & Hr)]; [contradiction|]. rewrite Forall_app in Hr. destruct Hr as (_ & Hr1). apply Forall_inv in Hr1.
        assert (Rm : room kb L n). { destruct (fits_rooms kb L _ HL Hr1) as [->|]; auto. lia. }
        assert (Q : exists t', cht_reserve VB L t n = Ok t' /\ rep t' (mapP ops) /\ ch_size t' = ch_size t).
        { destruct C as [(Nr & Sm)|(_ & Nr & R)].
          - apply (reserve_small t (mapP ops) n); auto; [change (2 ^ 51)%N with 2251799813685248%N; lia|change (2 ^ 52)%N with 4503599627370496%N; lia].
          - apply (reserve_any kb VB VW L Hkb ltac:(lia) HVW HVB t (mapP ops) n); auto; [change (2 ^ 51)%N with 2251799813685248%N; lia|change (2 ^ 52)%N with 4503599627370496%N; lia]. }
        destruct Q as (t' & E' & R' & S'). rewrite E'. cbn [bind]. exists t'. split; auto. split; [lia|]. split; [lia|]. right. split; auto. split; auto. apply rep_ext with (1 := R'). auto.
Qed.
Theorem load_map : forall ops, (N.of_nat (length ops) < 2 ^ 50)%N -> Forall (map_op_in kb VW) ops -> never_reserves ops \/ 1 <= L /\ Forall (reserve_fits kb L) ops -> fills_at_most (2 ^ bb) ops ->
  exists t, cht_run VB L kb (2 ^ bb) VW ops = Ok t /\ (forall k, (k < 2 ^ N.of_nat kb)%N -> cht_get t k = Ok (last_set k ops)) /\ ch_size t = distinct_keys ops.
Proof.
  intros ops Hn Ho Hr Hf. destruct (run_small ops Hn Ho Hr Hf) as (t & E & S & _ & C). exists t. split; auto. split; auto.
  assert (Q : exists l vs H, base kb VW L t l vs H /\ forall k v, (k < 2 ^ N.of_nat kb)%N -> (mapP ops k v <-> holds kb l vs H k v)).
  { destruct C as [(_ & l & vs & H & G & _ & _ & _ & _ & EP)|(_ & _ & l & vs & H & G & EP)]; exists l, vs, H; split; auto. apply G. }
  destruct Q as (l & vs & H & G & EP). intros k Hk. destruct (get_ok kb VW L Hkb t l vs H G k Hk) as [(v & Hv & Eg)|(Hv & Eg)]; rewrite Eg.
  - apply EP in Hv; auto. unfold mapP in Hv. now rewrite Hv.
  - f_equal. destruct (last_set k ops) as [v|] eqn:El; auto. exfalso. apply (Hv v). now apply EP.
Qed.
Lemma keys_mono : forall a b, distinct_keys a <= distinct_keys (a ++ b).
Proof.
  clear. intros a b. unfold distinct_keys. rewrite keys_app. apply NoDup_incl_length; [apply NoDup_nodup|]. intros x Hx. apply nodup_In in Hx. apply nodup_In, in_or_app. auto.
Qed.
Theorem load_stuck : forall ops k v post, (N.of_nat (length ops) < 2 ^ 50)%N -> Forall (map_op_in kb VW) ops -> never_reserves ops -> distinct_keys ops = 2 ^ bb ->
  (k < 2 ^ N.of_nat kb)%N -> last_set k ops = None ->
  exists t, cht_run VB L kb (2 ^ bb) VW ops = Ok t /\ ch_used t = ch_bucket t /\ (forall fuel i, i < ch_bucket t -> find_null fuel t i = Fuel) /\
    cht_run VB L kb (2 ^ bb) VW (ops ++ MapSet k v :: post) = Fuel.
Proof.
  intros ops k v post Hn Ho Nr Hd Hk No. destruct (run_small ops Hn Ho (or_introl Nr)) as (t & E & S & _ & C).
  { intros pre p2 Ep _. rewrite <- Hd, Ep. apply keys_mono. }
  destruct C as [(_ & Sm)|(_ & C & _)]; [|contradiction]. exists t. split; auto.
  destruct (set_stuck t (mapP ops) k v Sm Hk) as (Es & En); [intros v0; unfold mapP; congruence|congruence|].
  split; [destruct Sm as (l & vs & H & G & D & Sz & B & _); congruence|]. split; auto.
  unfold cht_run in *. apply bind_Ok_inv in E. destruct E as (t0 & E0 & E). rewrite E0. cbn [bind]. rewrite foldM_app, E. cbn [bind foldM cht_step]. rewrite Es. reflexivity.
Qed.
End Load.
