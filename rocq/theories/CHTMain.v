(** Proofs about CHTModel: the table as a finite map *)
From Coq Require Import List NArith ZArith Arith Bool Lia.
From Verif Require Import Base BitUtilModel FitVectorModel FitVectorProof HashModel HashProof CHTModel CHTRing CHTShift CHTWord CHTProof CHTInsert.
Import ListNotations.
Local Open Scope nat_scope.

Lemma retab_count : forall t t1 s, t1 = with_arr t (ch_arr t1) -> retab (with_counts t s (ch_used t)) (with_counts t1 s (ch_used t1)).
Proof. intros t t1 s E. unfold retab. rewrite E. destruct t. reflexivity. Qed.
Lemma retab_self : forall t, retab (with_counts t (ch_size t) (ch_used t)) t.
Proof. intros []. reflexivity. Qed.
Lemma retab_put : forall t t1 t2, retab (with_counts t (ch_size t1) (ch_used t)) t1 -> t2 = with_values t1 (ch_values t2) -> retab (with_counts t (ch_size t2) (ch_used t)) t2.
Proof. intros t t1 t2 E1 E2. unfold retab in *. rewrite E2, E1. destruct t. reflexivity. Qed.

Lemma le63 : forall kb, kb <= 60 -> kb <= 63.
Proof. intros. lia. Qed.
Section Map.
Variables (kb VW L : nat).
Hypothesis Hkb : kb <= 63.

(** a table; slots in use may be flagged as deleted, and the counter of the size is arbitrary *)
Record base (t : cht) (l vs : list N) (H : Z -> Z) : Prop := {
  g_a : arrs VW t l vs;
  g_kb : ch_key_bits t = kb;
  g_bb : ch_bucket t = 2 ^ ch_bucket_bits t;
  g_bb60 : ch_bucket_bits t <= 60;
  g_quo : ch_quo_bits t = kb - ch_bucket_bits t;
  g_max : ch_max t = ch_bucket t * L / 100;
  g_ring : ring (Z.of_nat (ch_bucket t)) (fU l) (fO l) (fC l) (fS l) H;
  g_del : forall z, fD l z = true -> fU l z = true;
  g_dist : forall z y, fU l z = true -> fU l y = true -> H z = H y -> fQ l z = fQ l y -> z = y;
  g_range : forall z, fU l z = true -> (hk l H z < 2 ^ N.of_nat kb)%N;
  g_used : ch_used t = cnt (fU l) 0 (Z.of_nat (ch_bucket t)) }.
(** a table in which nothing was erased *)
Record good (t : cht) (l vs : list N) (H : Z -> Z) : Prop := {
  g_base :> base t l vs H;
  g_nodel : forall z, fD l z = false;
  g_size : ch_size t = ch_used t;
  g_max1 : 1 <= ch_max t;
  g_le : ch_used t <= ch_max t }.

Definition hashf (k : N) : N := match sm_hash (N.of_nat kb) k with Ok h => h | _ => 0%N end.
Lemma hashf_ok : forall k, (k < 2 ^ N.of_nat kb)%N -> sm_hash (N.of_nat kb) k = Ok (hashf k) /\ (hashf k < 2 ^ N.of_nat kb)%N /\ sm_ihash (N.of_nat kb) (hashf k) = Ok k.
Proof using Hkb.
  intros k Hk. clear L VW; destruct (sm_inverse (N.of_nat kb) k ltac:(lia) Hk) as ((y & E & Hy & I) & _). unfold hashf. rewrite E. auto.
Qed.
Lemma hashf_inv : forall h, (h < 2 ^ N.of_nat kb)%N -> exists k, sm_ihash (N.of_nat kb) h = Ok k /\ (k < 2 ^ N.of_nat kb)%N /\ hashf k = h.
Proof using Hkb.
  intros h Hh. clear L VW; destruct (sm_inverse (N.of_nat kb) h ltac:(lia) Hh) as (_ & (y & E & Hy & I)). exists y. unfold hashf. rewrite I. auto.
Qed.
Lemma hashf_inj : forall k k', (k < 2 ^ N.of_nat kb)%N -> (k' < 2 ^ N.of_nat kb)%N -> hashf k = hashf k' -> k = k'.
Proof using Hkb. intros k k' Hk Hk' E. destruct (hashf_ok k Hk) as (_ & _ & I). destruct (hashf_ok k' Hk') as (_ & _ & I'). rewrite E in I. congruence. Qed.

Definition holds (l vs : list N) (H : Z -> Z) (k v : N) : Prop := exists z, fU l z = true /\ hk l H z = hashf k /\ wd vs z = v.
Definition rep (t : cht) (P : N -> N -> Prop) : Prop := exists l vs H, good t l vs H /\ forall k v, (k < 2 ^ N.of_nat kb)%N -> (P k v <-> holds l vs H k v).
Lemma rep_ext : forall t P P', rep t P -> (forall k v, (k < 2 ^ N.of_nat kb)%N -> (P' k v <-> P k v)) -> rep t P'.
Proof. intros t P P' (l & vs & H & G & E) EP. exists l, vs, H. split; auto. intros k v Hk. rewrite EP by auto. now apply E. Qed.

Section Good.
Variables (t : cht) (l vs : list N) (H : Z -> Z).
Hypothesis G : base t l vs H.
Let A := g_a _ _ _ _ G.
Let R := g_ring _ _ _ _ G.
Let B := ch_bucket t.
Lemma B2 : 1 <= B. Proof using A. apply A. Qed.
Lemma lenB : length l = B. Proof using A. apply A. Qed.
Lemma BN : N.of_nat B = (2 ^ N.of_nat (ch_bucket_bits t))%N.
Proof using G. clear Hkb. unfold B. rewrite (g_bb _ _ _ _ G). rewrite Nnat.Nat2N.inj_pow. reflexivity. Qed.
Definition home_of (h : N) : Z := Z.of_N (h mod N.of_nat B).
Definition quo_of (h : N) : N := (h / N.of_nat B)%N.
Lemma BN0 : N.of_nat B <> 0%N. Proof using G. clear Hkb. pose proof B2. lia. Qed.
Lemma home_bound : forall h, (0 <= home_of h < Z.of_nat B)%Z.
Proof using G. clear Hkb. intros h. unfold home_of. pose proof (N.mod_lt h (N.of_nat B) BN0). lia. Qed.
Lemma hk_eq : forall z h, hk l H z = h <-> fQ l z = quo_of h /\ (H z mod Z.of_nat B)%Z = home_of h.
Proof using G. clear Hkb.
  intros z h. unfold hk. rewrite lenB. pose proof B2 as HB. pose proof (Z.mod_pos_bound (H z) (Z.of_nat B) ltac:(lia)) as Mb. pose proof BN0 as N0.
  unfold quo_of, home_of. split.
  - intros <-. split.
    + rewrite N.add_comm, N.div_add by auto. rewrite N.div_small by lia. lia.
    + rewrite N.add_comm, N.mod_add by auto. rewrite N.mod_small by lia. lia.
  - intros (-> & ->). rewrite N2Z.id. rewrite N.mul_comm. symmetry. apply N.div_mod. auto.
Qed.
(** the entry of hash h, moved to the window of its home *)
Lemma entry_at_home : forall z h, fU l z = true -> hk l H z = h -> exists y, fU l y = true /\ H y = home_of h /\ fQ l y = quo_of h /\ idx B y = idx B z.
Proof using G. clear Hkb.
  intros z h Uz E. apply hk_eq in E. destruct E as (E1 & E2). exists (z + (- (H z / Z.of_nat B)) * Z.of_nat B)%Z.
  rewrite (perU _ _ _ _ _ _ R), (r_perH _ _ _ _ _ _ R), idx_per by apply B2. split; auto. split.
  - rewrite <- E2. pose proof (Z.div_mod (H z) (Z.of_nat B) ltac:(pose proof B2; lia)). lia.
  - split; auto. rewrite <- E1. unfold fQ. unfold B. rewrite <- (a_ll _ _ _ _ A). rewrite wd_per; auto. rewrite (a_ll _ _ _ _ A). apply B2.
Qed.
Lemma entry_unique : forall z y, fU l z = true -> fU l y = true -> hk l H z = hk l H y -> idx B z = idx B y.
Proof using G. clear Hkb.
  intros z y Uz Uy E. destruct (entry_at_home z _ Uz eq_refl) as (z' & Z1 & Z2 & Z3 & Z4). destruct (entry_at_home y _ Uy eq_refl) as (y' & Y1 & Y2 & Y3 & Y4).
  rewrite <- Z4, <- Y4. f_equal. apply (g_dist _ _ _ _ G); auto; congruence.
Qed.
Lemma wd_idx : forall ls z y, length ls = B -> idx B z = idx B y -> wd ls z = wd ls y.
Proof using G. clear Hkb. intros ls z y E I. unfold wd. rewrite E. now rewrite I. Qed.
Lemma holds_fun : forall k v v', holds l vs H k v -> holds l vs H k v' -> v = v'.
Proof using G. clear Hkb.
  intros k v v' (z & Z1 & Z2 & Z3) (y & Y1 & Y2 & Y3). rewrite <- Z3, <- Y3. apply wd_idx; [apply A|]. apply entry_unique; auto. congruence.
Qed.
Lemma bbN : (N.of_nat (ch_bucket_bits t) < 64)%N. Proof. pose proof (g_bb60 _ _ _ _ G). lia. Qed.
Lemma land_mask : forall h, N.land h (wsub (2 ^ N.of_nat (ch_bucket_bits t)) 1) = (h mod N.of_nat B)%N.
Proof. intros h. rewrite mask_sub by apply bbN. rewrite N.land_ones, BN. reflexivity. Qed.
Lemma shl1 : shl64 1 (N.of_nat (ch_bucket_bits t)) = Ok (2 ^ N.of_nat (ch_bucket_bits t))%N.
Proof.
  unfold shl64, wshl, wrap64. pose proof bbN. rewrite (proj2 (N.ltb_lt _ _)) by auto. f_equal. rewrite N.shiftl_1_l. apply N.mod_small. apply N.pow_lt_mono_r; lia.
Qed.
Lemma locate_ok : forall k, (k < 2 ^ N.of_nat kb)%N -> cht_locate t k = Ok (quo_of (hashf k), idx B (home_of (hashf k))).
Proof.
  intros k Hk. destruct (hashf_ok k Hk) as (E & Hh & _). unfold cht_locate. rewrite (g_kb _ _ _ _ G), E. cbn [bind]. pose proof bbN as Hb.
  unfold shr64. rewrite (proj2 (N.ltb_lt _ _)) by auto. cbn [bind]. rewrite shl1. cbn [bind].
  f_equal. f_equal.
  - unfold quo_of. rewrite BN, N.shiftr_div_pow2. reflexivity.
  - rewrite land_mask. unfold idx, home_of. pose proof (home_bound (hashf k)) as Q. unfold home_of in Q. rewrite Z.mod_small by auto. lia.
Qed.
Lemma quo_bound : forall h, (h < 2 ^ N.of_nat kb)%N -> (quo_of h < 2 ^ N.of_nat (ch_quo_bits t))%N.
Proof.
  intros h Hh. unfold quo_of. rewrite (g_quo _ _ _ _ G), BN. apply N.div_lt_upper_bound; [apply N.pow_nonzero; lia|]. rewrite <- N.pow_add_r.
  apply N.lt_le_trans with (2 ^ N.of_nat kb)%N; auto. apply N.pow_le_mono_r; lia.
Qed.

Lemma get_ok : forall k, (k < 2 ^ N.of_nat kb)%N ->
  (exists v, holds l vs H k v /\ cht_get t k = Ok (Some v)) \/ ((forall v, ~ holds l vs H k v) /\ cht_get t k = Ok None).
Proof.
  intros k Hk. unfold cht_get. rewrite locate_ok by auto. cbn [bind]. set (b := home_of (hashf k)). set (q := quo_of (hashf k)).
  rewrite (get_arr _ _ _ _ A b : _ _ (idx B b) = _). cbn [bind]. rewrite is_occupied_eq. fold (fO l b).
  destruct (search_ok _ _ _ _ A H R b q) as [(z & Uz & Hz & Qz & Ob & i & Ei & Ef)|(Fr & p & Sp & Hp & i & Ei & Ef)].
  - left. exists (wd vs z). split.
    + exists z. split; auto. split; auto. apply hk_eq. split; auto. rewrite Hz. apply Z.mod_small, home_bound.
    + rewrite Ob. cbn [negb]. rewrite (Ei : to_cluster_head t (idx B b) = _). cbn [bind]. rewrite Ef. cbn [bind]. rewrite (get_val _ _ _ _ A z). reflexivity.
  - right. split.
    + intros v (z & Uz & Ez & Vz). destruct (entry_at_home z _ Uz Ez) as (y & Y1 & Y2 & Y3 & _). apply (Fr y); auto.
    + destruct (fO l b) eqn:Ob; cbn [negb]; auto. rewrite (Ei : to_cluster_head t (idx B b) = _). cbn [bind]. rewrite Ef. reflexivity.
Qed.

Definition upP (P : N -> N -> Prop) (k v : N) : N -> N -> Prop := fun k' v' => if (k' =? k)%N then v' = v else P k' v'.
(** the same slots in use, with the same homes and quotients *)
Lemma same_flags : forall t' l' vs', arrs VW t' l' vs' -> retab (with_counts t (ch_size t') (ch_used t)) t' ->
  (forall z, fO l' z = fO l z) -> (forall z, fC l' z = fC l z) -> (forall z, fS l' z = fS l z) -> (forall z, fQ l' z = fQ l z) -> (forall z, fD l' z = true -> fU l z = true) ->
  base t' l' vs' H /\ (forall z, fU l' z = fU l z) /\ (forall z, hk l' H z = hk l H z).
Proof using G. clear Hkb.
  intros t' l' vs' A' R' FO FC FS FQ FD. assert (FU : forall z, fU l' z = fU l z) by (intros z; unfold fU; now rewrite FO, FC, FS).
  assert (K : ch_key_bits t' = ch_key_bits t /\ ch_bucket t' = B /\ ch_bucket_bits t' = ch_bucket_bits t /\ ch_quo_bits t' = ch_quo_bits t /\ ch_max t' = ch_max t /\ ch_used t' = ch_used t) by (rewrite R'; repeat split).
  clear R'. destruct K as (K1 & K2 & K3 & K4 & K5 & K6).
  assert (HK : forall z, hk l' H z = hk l H z) by (intros z; unfold hk; rewrite FQ, (a_ll _ _ _ _ A'), K2, lenB; reflexivity).
  split; [|auto]. constructor; rewrite ?K1, ?K2, ?K3, ?K4, ?K5, ?K6.
  - exact A'.
  - apply G.
  - apply G.
  - apply G.
  - apply G.
  - apply G.
  - apply (ring_ext _ _ _ _ _ _ _ _ _ _ R); auto.
  - intros z Dz. rewrite FU. auto.
  - intros z y Uz Uy. rewrite FU in Uz, Uy. rewrite !FQ. apply (g_dist _ _ _ _ G); auto.
  - intros z Uz. rewrite FU in Uz. rewrite HK. now apply (g_range _ _ _ _ G).
  - rewrite (cnt_ext (fU l') (fU l)) by auto. apply G.
Qed.
Lemma insert_base : forall k v, (k < 2 ^ N.of_nat kb)%N -> (v < 2 ^ N.of_nat VW)%N -> (exists v0, holds l vs H k v0) \/ ch_used t < ch_bucket t ->
  exists t', cht_insert t k v = Ok t' /\ ch_bucket t' = ch_bucket t /\
    (((exists v0, holds l vs H k v0) /\ ch_used t' = ch_used t /\ (ch_size t' = ch_size t \/ (exists z, fD l z = true) /\ ch_size t' = size_up (ch_size t))) \/
     ((forall v0, ~ holds l vs H k v0) /\ ch_used t' = S (ch_used t) /\ ch_size t' = size_up (ch_size t))) /\
    exists l' vs' H', base t' l' vs' H' /\ (forall z, fD l' z = true -> fD l z = true) /\
      (forall k' v', (k' < 2 ^ N.of_nat kb)%N -> (holds l' vs' H' k' v' <-> upP (holds l vs H) k v k' v')).
Proof.
  intros k v Hk Hv HR. unfold cht_insert. rewrite locate_ok by auto. cbn [bind]. set (b := home_of (hashf k)). set (q := quo_of (hashf k)).
  pose proof (home_bound (hashf k)) as Hb. fold b in Hb. destruct (hashf_ok k Hk) as (_ & Hh & _). pose proof (quo_bound _ Hh) as Hq. fold q in Hq. pose proof B2 as HB.
  destruct (search_ok _ _ _ _ A H R b q) as [(z & Uz & Hz & Qz & Ob & i & Ei & Ef)|(Fr & p & Sp & Hp & i & Ei & Ef)].
  - rewrite (Ei : to_cluster_head t (idx B b) = _). cbn [bind]. rewrite (get_arr _ _ _ _ A b : _ _ (idx B b) = _). cbn [bind]. rewrite is_occupied_eq. fold (fO l b). rewrite Ob.
    rewrite Ef. cbn [bind]. unfold cht_overwrite. rewrite (get_arr _ _ _ _ A z). cbn [bind]. rewrite is_deleted_eq. fold (fD l z).
    assert (Hkz : hk l H z = hashf k) by (apply hk_eq; split; auto; rewrite Hz; apply Z.mod_small; auto).
    assert (Ph : exists t1 l1, (if fD l z then do t1 <- put_word t (idx (ch_bucket t) z) (N.land (wd l z) (wnot kDeletedMask)); Ok (with_counts t1 (size_up (ch_size t1)) (ch_used t1)) else Ok t) = Ok t1 /\
        retab (with_counts t (ch_size t1) (ch_used t)) t1 /\ arrs VW t1 l1 vs /\ (ch_size t1 = ch_size t \/ (exists z, fD l z = true) /\ ch_size t1 = size_up (ch_size t)) /\
        (forall y, fO l1 y = fO l y) /\ (forall y, fC l1 y = fC l y) /\ (forall y, fS l1 y = fS l y) /\ (forall y, fQ l1 y = fQ l y) /\ (forall y, fD l1 y = true -> fD l y = true)).
    { destruct (fD l z) eqn:Dz.
      - destruct (w_undel_spec (wd l z) (ch_quo_bits t) (a_q _ _ _ _ A) (word_bound _ _ _ _ A z)) as (W1 & W2 & W3 & W4 & W5 & W6).
        destruct (put_arr _ _ _ _ A z _ W1) as (t1 & E1 & R1 & A1). rewrite E1. cbn [bind]. fold B in A1.
        exists (with_counts t1 (size_up (ch_size t1)) (ch_used t1)), (upd l (idx B z) (N.land (wd l z) (wnot kDeletedMask))). split; auto.
        assert (Sz : ch_size t1 = ch_size t) by (rewrite R1; reflexivity).
        assert (Wy : forall y, wd (upd l (idx B z) (N.land (wd l z) (wnot kDeletedMask))) y = if idx B y =? idx B z then N.land (wd l z) (wnot kDeletedMask) else wd l y) by (intros y; exact (upd_arr _ _ _ _ A y z _)).
        assert (We : forall y, (idx B y =? idx B z) = true -> wd l y = wd l z) by (intros y Ey; apply Nat.eqb_eq in Ey; unfold wd; rewrite lenB; now rewrite Ey).
        split; [now apply retab_count|]. split; [destruct A1; constructor; auto|]. split; [right; split; [exists z; auto|cbn [with_counts ch_size]; now rewrite Sz]|].
        unfold fO, fC, fS, fQ, fD. repeat split; intros y; rewrite Wy; specialize (We y); destruct (idx B y =? idx B z); auto; rewrite We by auto; congruence.
      - exists t, l. split; auto. split; [apply retab_self|]. split; auto. repeat split; auto. }
    destruct Ph as (t1 & l1 & E1 & R1 & A1 & S1 & FO & FC & FS & FQ & FD). fold B in E1. fold B. rewrite E1. cbn [bind]. clear E1.
    assert (B1 : ch_bucket t1 = B) by (rewrite R1; reflexivity).
    destruct (put_val _ _ _ _ A1 z v Hv) as (t' & E' & R' & A'). rewrite B1 in E', A'.
    assert (U1 : ch_used t' = ch_used t) by (rewrite R', R1; reflexivity). assert (Z1 : ch_size t' = ch_size t1) by (rewrite R'; reflexivity).
    destruct (same_flags t' l1 (upd vs (idx B z) v)) as (G' & FU' & HK'); auto.
    { eapply retab_put; eauto. }
    { intros y Dy. apply (g_del _ _ _ _ G). auto. }
    exists t'. split; [exact E'|]. split; [now rewrite R'|]. split; [left; split; [exists (wd vs z), z; auto|]; split; [auto|]; now rewrite Z1|].
    exists l1, (upd vs (idx B z) v), H. split; auto. split; auto.
    intros k' v' Hk'. unfold upP. destruct (N.eqb_spec k' k) as [->|Nk].
    + split.
      * intros (y & Uy & Ey & Vy). rewrite FU' in Uy. rewrite HK' in Ey. rewrite (upd_val _ _ _ _ A y z) in Vy. rewrite (proj2 (Nat.eqb_eq _ _)) in Vy; auto. apply entry_unique; auto. congruence.
      * intros ->. exists z. rewrite FU', HK'. split; auto. split; auto. rewrite (upd_val _ _ _ _ A z z). now rewrite Nat.eqb_refl.
    + assert (Ny : forall y, fU l y = true -> hk l H y = hashf k' -> (idx B y =? idx B z) = false).
      { intros y Uy Ey. apply Nat.eqb_neq. intros EI. apply Nk. apply hashf_inj; auto. rewrite <- Ey, <- Hkz. unfold hk. f_equal.
        - unfold CHTProof.fQ. now rewrite (wd_idx l y z lenB EI).
        - f_equal. rewrite lenB. apply (idx_eq B HB) in EI. pose proof (Z.div_mod (y - z) (Z.of_nat B) ltac:(lia)) as DM. rewrite EI in DM.
          replace y with (z + (y - z) / Z.of_nat B * Z.of_nat B)%Z by lia. rewrite (r_perH _ _ _ _ _ _ R). apply Z.mod_add. lia. }
      split; intros (y & Uy & Ey & Vy); exists y; [rewrite FU' in Uy; rewrite HK' in Ey|rewrite FU', HK']; split; auto; split; auto; rewrite (upd_val _ _ _ _ A y z) in *; now rewrite (Ny y Uy Ey : (idx (ch_bucket t) y =? idx (ch_bucket t) z) = false) in *.
  - rewrite (Ei : to_cluster_head t (idx B b) = _). cbn [bind]. rewrite (get_arr _ _ _ _ A b : _ _ (idx B b) = _). cbn [bind]. rewrite is_occupied_eq. fold (fO l b).
    rewrite (Ef : _ = Ok (inr (idx B p))). cbn [bind].
    assert (Room : exists u, fU l u = false).
    { destruct HR as [(v0 & y & Uy & Ey & _)|HR]; [exfalso; destruct (entry_at_home y _ Uy Ey) as (x & X1 & X2 & X3 & _); apply (Fr x); auto|].
      rewrite (g_used _ _ _ _ G) in HR. destruct (cnt_lt_free (fU l) (Z.of_nat B) 0) as (u & _ & Hu); [fold B in HR; lia|]. eauto. }
    destruct (insert_at_ok VW t l vs H A R (g_del _ _ _ _ G) b p q v Sp Hq Hv Room) as (j & t' & l' & vs' & Hj & Fj & Full & E' & R' & A' & D' & FO & FC & FS & FQ & FV).
    fold B in Hj, E', D', FO, FC, FS, FQ, FV.
    assert (Bt : ch_bucket t' = B) by (rewrite R'; reflexivity).
    assert (FU : forall z, fU l' z = ins_U (Z.of_nat B) (fU l) j z).
    { intros z. unfold fU at 1. rewrite FO, FC, FS. symmetry. apply (insU_eq _ _ _ _ _ _ R b p j Sp Hj). auto. }
    pose proof (ins_count _ _ _ _ _ _ R b p j Sp Hj Fj Full 0%Z) as Cn. fold B in Cn. rewrite Z.add_0_l in Cn.
    pose proof (g_used _ _ _ _ G) as Us. fold B in Us. rewrite <- Us in Cn.
    exists t'. split; [exact E'|]. split; [exact Bt|]. split.
    { right. split; [|rewrite R'; split; reflexivity]. intros v0 (z & Z1 & Z2 & Z3). destruct (entry_at_home z _ Z1 Z2) as (y & Y1 & Y2 & Y3 & _). apply (Fr y); auto. }
    assert (K5 : ch_used t' = S (ch_used t)) by (rewrite R'; reflexivity). 
    pose proof (insert_ring _ _ _ _ _ _ R b p j Sp Hj Fj Full) as R2. fold B in R2.
    pose proof (ring_ext _ _ _ _ _ _ _ _ _ _ R2 FU FO FC FS) as R3. set (H' := ins_H (Z.of_nat B) H b p j) in *.
    assert (PQ : forall z m, fQ l (z + m * Z.of_nat B) = fQ l z) by (intros; unfold fQ; rewrite <- lenB; now rewrite wd_per by (rewrite lenB; auto)).
    assert (PV : forall z m, wd vs (z + m * Z.of_nat B) = wd vs z) by (intros; unfold B; rewrite <- (a_lv _ _ _ _ A); now rewrite wd_per by (rewrite (a_lv _ _ _ _ A); auto)).
    assert (PX : forall z m, (fun z => (fQ l z, wd vs z)) (z + m * Z.of_nat B)%Z = (fun z => (fQ l z, wd vs z)) z) by (intros; cbv beta; now rewrite PQ, PV).
    assert (FX : forall z, (fQ l' z, wd vs' z) = ins_X (Z.of_nat B) p j (q, v) (fun z => (fQ l z, wd vs z)) z).
    { intros z. rewrite FQ, FV. unfold ins_X. destruct (rr (Z.of_nat B) p z =? 0)%Z; [reflexivity|]. now destruct (rr (Z.of_nat B) p z <=? j - p)%Z. }
    assert (Ent : forall h y w, (exists z, fU l' z = true /\ H' z = h /\ fQ l' z = y /\ wd vs' z = w) <->
                               (exists z, fU l z = true /\ H z = h /\ fQ l z = y /\ wd vs z = w) \/ (exists m, h = (b + m * Z.of_nat B)%Z) /\ y = q /\ w = v).
    { intros h y w. pose proof (ins_entries _ _ _ _ _ _ R b p j Sp Hj Fj Full _ (q, v) (fun z => (fQ l z, wd vs z)) h (y, w) PX) as IE. split.
      - intros (z & Z1 & Z2 & Z3 & Z4). destruct (proj1 IE) as [(x & X1 & X2 & X3)|(X1 & X2)].
        + exists z. rewrite <- FU. split; auto. split; auto. rewrite <- FX. congruence.
        + left. exists x. injection X3 as X3 X4. auto.
        + right. injection X2 as X2 X3. auto.
      - intros O. destruct (proj2 IE) as (x & X1 & X2 & X3).
        + destruct O as [(z & Z1 & Z2 & Z3 & Z4)|(O1 & O2 & O3)]; [left; exists z; split; auto; split; auto; congruence|right; split; auto; congruence].
        + exists x. rewrite FU. split; auto. split; auto. rewrite <- FX in X3. injection X3 as X3 X4. auto. }
    assert (Ll' : length l' = B) by (rewrite (a_ll _ _ _ _ A'); exact Bt).
    assert (Hol : forall h w, (exists z, fU l' z = true /\ hk l' H' z = h /\ wd vs' z = w) <-> (exists z, fU l z = true /\ hk l H z = h /\ wd vs z = w) \/ (h = hashf k /\ w = v)).
    { assert (Hk' : forall z h, hk l' H' z = h <-> fQ l' z = quo_of h /\ (H' z mod Z.of_nat B)%Z = home_of h).
      { intros z h. unfold hk. rewrite Ll'. pose proof (Z.mod_pos_bound (H' z) (Z.of_nat B) ltac:(lia)) as Mb. pose proof BN0 as N0. unfold quo_of, home_of. split.
        - intros <-. split.
          + rewrite N.add_comm, N.div_add by auto. rewrite N.div_small by lia. lia.
          + rewrite N.add_comm, N.mod_add by auto. rewrite N.mod_small by lia. lia.
        - intros (-> & ->). rewrite N2Z.id. rewrite N.mul_comm. symmetry. apply N.div_mod. auto. }
      intros h w. split.
      - intros (z & Z1 & Z2 & Z3). apply Hk' in Z2. destruct Z2 as (Z2 & Z4). destruct (proj1 (Ent (H' z) (fQ l' z) w)) as [(x & X1 & X2 & X3 & X4)|((m & X1) & X2 & X3)]; [exists z; auto| |].
        + left. exists x. split; auto. split; auto. apply hk_eq. rewrite X3, X2. auto.
        + right. split; auto. rewrite X1 in Z4. rewrite Z.mod_add in Z4 by lia. rewrite Z.mod_small in Z4 by auto. rewrite X2 in Z2.
          unfold b, q, home_of, quo_of in Z2, Z4. rewrite (N.div_mod h (N.of_nat B) BN0), (N.div_mod (hashf k) (N.of_nat B) BN0). rewrite Z2. f_equal. lia.
      - intros O. assert (Q : exists z, fU l' z = true /\ (H' z mod Z.of_nat B)%Z = home_of h /\ fQ l' z = quo_of h /\ wd vs' z = w).
        { destruct O as [(z & Z1 & Z2 & Z3)|(-> & ->)].
          - apply hk_eq in Z2. destruct (proj2 (Ent (H z) (fQ l z) w)) as (x & X1 & X2 & X3 & X4); [left; exists z; auto|]. exists x. rewrite X2, X3. tauto.
          - destruct (proj2 (Ent b q v)) as (x & X1 & X2 & X3 & X4); [right; split; auto; exists 0%Z; lia|]. exists x. rewrite X2. split; auto. split; auto. apply Z.mod_small. auto. }
        destruct Q as (z & Z1 & Z2 & Z3 & Z4). exists z. split; auto. split; auto. apply Hk'. auto. }
    exists l', vs', H'. split.
    { assert (K1 : ch_key_bits t' = ch_key_bits t) by (rewrite R'; reflexivity). assert (K2 : ch_bucket_bits t' = ch_bucket_bits t) by (rewrite R'; reflexivity).
      assert (K3 : ch_quo_bits t' = ch_quo_bits t) by (rewrite R'; reflexivity). assert (K4 : ch_max t' = ch_max t) by (rewrite R'; reflexivity).
      
      clear R' E' R2. constructor; rewrite ?K1, ?K2, ?K3, ?K4, ?K5, ?Bt.
      - exact A'.
      - apply G.
      - apply G.
      - apply G.
      - apply G.
      - apply G.
      - exact R3.
      - intros z Dz. rewrite D' in Dz. rewrite FU. unfold ins_U. apply orb_true_iff. left. destruct (rr (Z.of_nat B) p z =? 0)%Z; [discriminate|]. now apply (g_del _ _ _ _ G).
      - intros z y Uz Uy EH EQ. rewrite FU in Uz, Uy. refine (ins_distinct _ _ _ _ _ _ R b p j Sp Hj Fj Full _ _ fst (q, v) (fun z => (fQ l z, wd vs z)) PX _ _ z y Uz Uy EH _).
        + intros z0 y0 Uz0 Uy0 EH0 EX0. apply (g_dist _ _ _ _ G); auto.
        + intros z0 Uz0 EH0. cbn [fst]. auto.
        + fold B. rewrite <- !FX. exact EQ.
      - intros z Uz. destruct (proj1 (Hol (hk l' H' z) (wd vs' z))) as [(x & X1 & X2 & X3)|(X1 & _)]; [exists z; auto| |].
        + rewrite <- X2. now apply (g_range _ _ _ _ G).
        + rewrite X1. auto.
      - rewrite (cnt_ext (fU l') (ins_U (Z.of_nat B) (fU l) j)) by auto. rewrite Cn. reflexivity.
    }
    split; [intros z Dz; rewrite D' in Dz; destruct (rr (Z.of_nat B) p z =? 0)%Z; [discriminate|auto]|].
    { intros k' v' Hk'. unfold holds at 1. rewrite Hol. unfold upP. destruct (N.eqb_spec k' k) as [->|Nk].
      - split.
        + intros [(z & Z1 & Z2 & Z3)|(_ & ->)]; auto. exfalso. destruct (entry_at_home z _ Z1 Z2) as (y & Y1 & Y2 & Y3 & _). apply (Fr y); auto.
        + intros ->. right. auto.
      - split.
        + intros [O|(O & _)]; auto. exfalso. apply Nk. apply hashf_inj; auto.
        + intros O. left. exact O. }
Qed.
End Good.

Lemma size_up_small : forall s, (N.of_nat s < 2 ^ 63)%N -> size_up s = S s.
Proof. clear. intros s Hs. unfold size_up, wrap64. change (2 ^ 64)%N with 18446744073709551616%N. change (2 ^ 63)%N with 9223372036854775808%N in Hs. rewrite N.mod_small by lia. lia. Qed.
Lemma used_small : forall t l vs H, base t l vs H -> ch_used t <= ch_bucket t /\ (N.of_nat (ch_bucket t) <= 2 ^ 60)%N.
Proof.
  clear. intros t l vs H G. pose proof (g_ring _ _ _ _ G) as R. pose proof (a_B _ _ _ _ (g_a _ _ _ _ G)) as HB. split.
  - rewrite (g_used _ _ _ _ G). pose proof (cnt_le (fU l) 0 (Z.of_nat (ch_bucket t)) ltac:(lia)). lia.
  - rewrite (BN t l vs H G). apply N.pow_le_mono_r; [lia|]. pose proof (g_bb60 _ _ _ _ G). lia.
Qed.
Lemma insert_ok : 1 <= L <= 100 -> forall t l vs H, good t l vs H -> forall k v, (k < 2 ^ N.of_nat kb)%N -> (v < 2 ^ N.of_nat VW)%N -> ch_used t < ch_max t ->
  exists t' l' vs' H', cht_insert t k v = Ok t' /\ good t' l' vs' H' /\ ch_bucket t' = ch_bucket t /\
    (forall k' v', (k' < 2 ^ N.of_nat kb)%N -> (holds l' vs' H' k' v' <-> upP (holds l vs H) k v k' v')) /\
    (((exists v0, holds l vs H k v0) /\ ch_size t' = ch_size t) \/ ((forall v0, ~ holds l vs H k v0) /\ ch_size t' = S (ch_size t))).
Proof.
  intros HL t l vs H G k v Hk Hv Hu. pose proof (a_B _ _ _ _ (g_a _ _ _ _ G)) as HB.
  assert (MB : ch_max t <= ch_bucket t). { rewrite (g_max _ _ _ _ G). apply Nat.div_le_upper_bound; [lia|]. clear - HB HL. nia. }
  destruct (insert_base t l vs H G k v Hk Hv) as (t' & E' & B' & C' & l' & vs' & H' & G' & D' & P'); [right; lia|].
  destruct (used_small t l vs H G) as (Us & Bs).
  assert (Su : size_up (ch_size t) = S (ch_size t)). { apply size_up_small. rewrite (g_size _ _ _ _ G). change (2 ^ 63)%N with 9223372036854775808%N. change (2 ^ 60)%N with 1152921504606846976%N in Bs. lia. }
  assert (M' : ch_max t' = ch_max t) by (rewrite (g_max _ _ _ _ G), (g_max _ _ _ _ G'), B'; reflexivity).
  exists t', l', vs', H'. split; auto. destruct C' as [(C1 & C2 & C3)|(C1 & C2 & C3)].
  - assert (Sz : ch_size t' = ch_size t) by (destruct C3 as [|((z & Dz) & _)]; auto; rewrite (g_nodel _ _ _ _ G) in Dz; discriminate).
    split; [|split; auto; split; auto]. constructor; auto.
    + intros z. destruct (fD l' z) eqn:Dz; auto. apply D' in Dz. now rewrite (g_nodel _ _ _ _ G) in Dz.
    + rewrite Sz, C2. apply G.
    + rewrite M'. apply G.
    + rewrite C2, M'. apply G.
  - rewrite Su in C3. split; [|split; auto; split; auto]. constructor; auto.
    + intros z. destruct (fD l' z) eqn:Dz; auto. apply D' in Dz. now rewrite (g_nodel _ _ _ _ G) in Dz.
    + rewrite C3, C2, (g_size _ _ _ _ G). reflexivity.
    + rewrite M'. apply G.
    + rewrite C2, M'. lia.
Qed.
End Map.
