(** Proofs about CHTModel: inserting one entry *)
From Coq Require Import List NArith ZArith Arith Bool Lia.
From Verif Require Import Base BitUtilModel FitVectorModel FitVectorProof HashModel HashProof CHTModel CHTRing CHTShift CHTWord CHTProof.
Import ListNotations.
Local Open Scope nat_scope.

Definition retab (t t' : cht) : Prop := t' = with_values (with_arr t (ch_arr t')) (ch_values t').
Lemma retab_refl : forall t, retab t t.
Proof. intros []. reflexivity. Qed.
Lemma retab_trans : forall a b c, retab a b -> retab b c -> retab a c.
Proof. intros a b c E1 E2. unfold retab in *. rewrite E2, E1. destruct a. reflexivity. Qed.
Lemma retab_arr : forall t t', t' = with_arr t (ch_arr t') -> retab t t'.
Proof. intros t t' E. unfold retab. rewrite E. destruct t. reflexivity. Qed.
Lemma retab_val : forall t t', t' = with_values t (ch_values t') -> retab t t'.
Proof. intros t t' E. unfold retab. rewrite E. destruct t. reflexivity. Qed.

(** only slots in use carry the Deleted flag *)
Definition fD (l : list N) (z : Z) : bool := db (wd l z).
Lemma null_eq : forall l z, (forall z, fD l z = true -> fU l z = true) -> is_null (wd l z) = negb (fU l z).
Proof.
  intros l z D. rewrite is_null_eq. fold (fO l z). fold (fC l z). fold (fS l z). fold (fD l z). specialize (D z). unfold fU in *. destruct (fD l z); [|now rewrite orb_false_r].
  now rewrite D, orb_true_r by auto.
Qed.

Lemma find_null_ok : forall VW t l vs, arrs VW t l vs -> (forall z, fD l z = true -> fU l z = true) -> forall j, fU l j = false ->
  forall n y fuel, n = Z.to_nat (j - y) -> (y < j)%Z -> (forall x, (y < x < j)%Z -> fU l x = true) -> n <= fuel ->
  find_null fuel t (idx (ch_bucket t) y) = Ok (idx (ch_bucket t) j).
Proof.
  intros VW t l vs A D j Fj. induction n; intros y fuel En Hy Us Hf; [lia|]. destruct fuel; [lia|]. cbn [find_null].
  rewrite (succ_at _ _ _ _ A), (get_arr _ _ _ _ A). cbn [bind]. rewrite null_eq by auto. destruct (Z.eq_dec (y + 1) j) as [E|].
  - rewrite E, Fj. reflexivity.
  - rewrite Us by lia. cbn [negb]. apply IHn; try lia. intros. apply Us. lia.
Qed.

(** the offset of slot z from slot p *)
Definition off (B : nat) (p z : Z) : Z := ((z - p) mod Z.of_nat B)%Z.
Lemma off_bound : forall B p z, 1 <= B -> (0 <= off B p z < Z.of_nat B)%Z.
Proof. intros. unfold off. apply Z.mod_pos_bound. lia. Qed.
Lemma off_idx : forall B p y z, 1 <= B -> (0 <= y - p < Z.of_nat B)%Z -> (idx B z =? idx B y) = (off B p z =? y - p)%Z.
Proof.
  intros B p y z HB Hy. destruct (Nat.eqb_spec (idx B z) (idx B y)) as [E|E]; symmetry.
  - apply Z.eqb_eq. apply idx_eq in E; auto. unfold off. pose proof (Z.div_mod (z - y) (Z.of_nat B) ltac:(lia)) as D. rewrite E in D.
    replace (z - p)%Z with (y - p + (z - y) / Z.of_nat B * Z.of_nat B)%Z by lia. rewrite Z.mod_add by lia. apply Z.mod_small. lia.
  - apply Z.eqb_neq. intros E2. apply E. apply idx_eq; auto. unfold off in E2. pose proof (Z.div_mod (z - p) (Z.of_nat B) ltac:(lia)) as D. rewrite E2 in D.
    replace (z - y)%Z with (0 + (z - p) / Z.of_nat B * Z.of_nat B)%Z by lia. rewrite Z.mod_add by lia. apply Z.mod_0_l. lia.
Qed.
Lemma off_pred : forall B p z, 1 <= B -> (1 <= off B p z)%Z -> off B p (z - 1) = (off B p z - 1)%Z.
Proof.
  intros B p z HB Ho. pose proof (off_bound B p z HB). unfold off in *. pose proof (Z.div_mod (z - p) (Z.of_nat B) ltac:(lia)) as D.
  replace (z - 1 - p)%Z with ((z - p) mod Z.of_nat B - 1 + (z - p) / Z.of_nat B * Z.of_nat B)%Z by lia. rewrite Z.mod_add by lia. apply Z.mod_small. lia.
Qed.

Lemma shift_ok : forall VW q p n y t l vs fuel, arrs VW t l vs -> ch_quo_bits t = q -> n = Z.to_nat (y - p) -> (p < y < p + Z.of_nat (ch_bucket t))%Z -> n <= fuel ->
  exists t' l' vs', shift_slots fuel t (idx (ch_bucket t) p) (idx (ch_bucket t) y) = Ok t' /\ retab t t' /\ arrs VW t' l' vs' /\
    (forall z, wd l' z = if ((1 <=? off (ch_bucket t) p z) && (off (ch_bucket t) p z <=? y - p))%Z then w_shift q (wd l z) (wd l (z - 1)) else wd l z) /\
    (forall z, wd vs' z = if ((1 <=? off (ch_bucket t) p z) && (off (ch_bucket t) p z <=? y - p))%Z then wd vs (z - 1) else wd vs z).
Proof.
  intros VW q p. induction n; intros y t l vs fuel A Eq En Hy Hf; [lia|]. destruct fuel; [lia|]. cbn [shift_slots].
  pose proof (a_B _ _ _ _ A) as HB. set (B := ch_bucket t) in *.
  rewrite (pred_at _ _ _ _ A y : cht_pred t (idx B y) = idx B (y - 1)), (get_arr _ _ _ _ A y : _ _ (idx B y) = _), (get_arr _ _ _ _ A (y - 1) : _ _ (idx B (y - 1)) = _). cbn [bind]. rewrite quo_mask_ok by apply A. cbn [bind]. rewrite Eq.
  change (N.lor (N.lor (N.land (wd l y) (N.lor kOccupiedMask kDeletedMask)) (N.land (wd l (y - 1)) (N.lor (N.shiftl (N.ones (N.of_nat q)) 4) kContinuationMask))) kShiftedMask) with (w_shift q (wd l y) (wd l (y - 1))).
  pose proof (word_bound _ _ _ _ A (y - 1)) as Wb. rewrite Eq in Wb. destruct (w_shift_spec q (wd l y) (wd l (y - 1)) Wb) as (W1 & _). rewrite <- Eq in W1.
  destruct (put_arr _ _ _ _ A y _ W1) as (t1 & E1 & R1 & A1). rewrite Eq in E1. fold B in E1. rewrite E1. cbn [bind]. apply retab_arr in R1.
  assert (B1 : ch_bucket t1 = B) by (rewrite R1; reflexivity).
  pose proof (get_val _ _ _ _ A1 (y - 1)) as G1. rewrite B1 in G1. rewrite G1. cbn [bind].
  destruct (put_val _ _ _ _ A1 y _ (val_bound _ _ _ _ A (y - 1))) as (t2 & E2 & R2 & A2). rewrite B1 in E2. rewrite E2. cbn [bind]. apply retab_val in R2.
  assert (B2 : ch_bucket t2 = B) by (rewrite R2, R1; reflexivity). rewrite B1 in A2. fold B in A2. rewrite Eq in A2.
  set (l1 := upd l (idx B y) (w_shift q (wd l y) (wd l (y - 1)))) in *. set (vs1 := upd vs (idx B y) (wd vs (y - 1))) in *.
  assert (L1 : forall z, wd l1 z = if (off B p z =? y - p)%Z then w_shift q (wd l y) (wd l (y - 1)) else wd l z).
  { intros z. unfold l1. rewrite (upd_arr _ _ _ _ A z y). fold B. rewrite (off_idx B p y z) by (auto; lia). reflexivity. }
  assert (V1 : forall z, wd vs1 z = if (off B p z =? y - p)%Z then wd vs (y - 1) else wd vs z).
  { intros z. unfold vs1. rewrite (upd_val _ _ _ _ A z y). fold B. rewrite (off_idx B p y z) by (auto; lia). reflexivity. }
  assert (PerL : forall z, (off B p z =? y - p)%Z = true -> wd l z = wd l y /\ wd l (z - 1) = wd l (y - 1) /\ wd vs (z - 1) = wd vs (y - 1)).
  { intros z Ez. rewrite <- (off_idx B p y z) in Ez by (auto; lia). apply Nat.eqb_eq in Ez. apply idx_eq in Ez; auto.
    pose proof (Z.div_mod (z - y) (Z.of_nat B) ltac:(lia)) as D. rewrite Ez in D.
    assert (Ezz : z = (y + (z - y) / Z.of_nat B * Z.of_nat B)%Z) by lia. remember ((z - y) / Z.of_nat B)%Z as m. subst z.
    replace (y + m * Z.of_nat B - 1)%Z with (y - 1 + m * Z.of_nat B)%Z by lia.
    pose proof (wd_per l y m) as P1. pose proof (wd_per l (y - 1) m) as P2. pose proof (wd_per vs (y - 1) m) as P3.
    rewrite (a_ll _ _ _ _ A) in P1, P2. rewrite (a_lv _ _ _ _ A) in P3. fold B in P1, P2, P3. rewrite P1, P2, P3 by auto. auto. }
  destruct (Nat.eqb_spec (idx B (y - 1)) (idx B p)) as [E|E].
  - assert (Ey : y = (p + 1)%Z) by (apply idx_near in E; auto; lia). subst y. exists t2, l1, vs1. split; [reflexivity|]. split; [eapply retab_trans; eauto|]. split; auto.
    replace (p + 1 - p)%Z with 1%Z in * by lia. split; intros z.
    + rewrite L1. destruct (off B p z =? 1)%Z eqn:Ez.
      * destruct (PerL z Ez) as (P1 & P2 & _). apply Z.eqb_eq in Ez. rewrite Ez. simpl. now rewrite P1, P2.
      * apply Z.eqb_neq in Ez. replace ((1 <=? off B p z) && (off B p z <=? 1))%Z with false; auto. symmetry. apply andb_false_iff. rewrite !Z.leb_gt. lia.
    + rewrite V1. destruct (off B p z =? 1)%Z eqn:Ez.
      * destruct (PerL z Ez) as (_ & _ & P3). apply Z.eqb_eq in Ez. rewrite Ez. simpl. now rewrite P3.
      * apply Z.eqb_neq in Ez. replace ((1 <=? off B p z) && (off B p z <=? 1))%Z with false; auto. symmetry. apply andb_false_iff. rewrite !Z.leb_gt. lia.
  - assert (Ny : (y - 1 <> p)%Z) by (intros E'; apply E; now rewrite E').
    destruct (IHn (y - 1)%Z t2 l1 vs1 fuel A2) as (t' & l' & vs' & E' & R' & A' & L' & V'); try lia; try (rewrite R2, R1; exact Eq).
    rewrite B2 in E', L', V'. rewrite E'. exists t', l', vs'. split; auto. split; [eapply retab_trans; [eapply retab_trans; eauto|auto]|]. split; auto.
    split; intros z; pose proof (off_bound B p z HB) as Ob.
    + rewrite L', !L1. destruct (Z.leb_spec 1 (off B p z)) as [Z1|Z1]; cbn [andb].
      * rewrite (off_pred B p z) by auto. destruct (Z.leb_spec (off B p z) (y - 1 - p)) as [Z2|Z2].
        -- rewrite (proj2 (Z.eqb_neq _ _)) by lia. rewrite (proj2 (Z.eqb_neq _ _)) by lia. rewrite (proj2 (Z.leb_le _ _)) by lia. reflexivity.
        -- destruct (off B p z =? y - p)%Z eqn:Ez.
           ++ destruct (PerL z Ez) as (P1 & P2 & _). apply Z.eqb_eq in Ez. rewrite (proj2 (Z.leb_le _ _)) by lia. now rewrite P1, P2.
           ++ apply Z.eqb_neq in Ez. rewrite (proj2 (Z.leb_gt _ _)) by lia. reflexivity.
      * rewrite (proj2 (Z.eqb_neq _ _)) by lia. reflexivity.
    + rewrite V', !V1. destruct (Z.leb_spec 1 (off B p z)) as [Z1|Z1]; cbn [andb].
      * rewrite (off_pred B p z) by auto. destruct (Z.leb_spec (off B p z) (y - 1 - p)) as [Z2|Z2].
        -- rewrite (proj2 (Z.eqb_neq _ _)) by lia. rewrite (proj2 (Z.leb_le _ _)) by lia. reflexivity.
        -- destruct (off B p z =? y - p)%Z eqn:Ez.
           ++ destruct (PerL z Ez) as (_ & _ & P3). apply Z.eqb_eq in Ez. rewrite (proj2 (Z.leb_le _ _)) by lia. now rewrite P3.
           ++ apply Z.eqb_neq in Ez. rewrite (proj2 (Z.leb_gt _ _)) by lia. reflexivity.
      * rewrite (proj2 (Z.eqb_neq _ _)) by lia. reflexivity.
Qed.

(** insertion: the new flags are those of CHTShift.v *)
Section InsertAt.
Variables (VW : nat) (t : cht) (l vs : list N) (H : Z -> Z).
Hypothesis A : arrs VW t l vs.
Hypothesis R : ring (Z.of_nat (ch_bucket t)) (fU l) (fO l) (fC l) (fS l) H.
Hypothesis D : forall z, fD l z = true -> fU l z = true.
Variables (b p : Z) (quo v : N).
Hypothesis Sp : is_spot (fU l) (fO l) (fC l) H b p.
Hypothesis Hq : (quo < 2 ^ N.of_nat (ch_quo_bits t))%N.
Hypothesis Hv : (v < 2 ^ N.of_nat VW)%N.
Hypothesis Room : exists u, fU l u = false.
Let B := ch_bucket t.
Let HB : 1 <= B := a_B _ _ _ _ A.

Lemma insert_at_ok : exists j t' l' vs', (p <= j < b + Z.of_nat B)%Z /\ fU l j = false /\ (forall y, (p <= y)%Z -> (y < j)%Z -> fU l y = true) /\
  cht_insert_at t quo (idx B b) (idx B p) v = Ok t' /\ retab (with_counts t (size_up (ch_size t)) (S (ch_used t))) t' /\ arrs VW t' l' vs' /\
  (forall z, fD l' z = if (rr (Z.of_nat B) p z =? 0)%Z then false else fD l z) /\
  (forall z, fO l' z = ins_O (Z.of_nat B) (fO l) b z) /\ (forall z, fC l' z = ins_C (Z.of_nat B) (fO l) (fC l) b p j z) /\ (forall z, fS l' z = ins_S (Z.of_nat B) (fS l) b p j z) /\
  (forall z, fQ l' z = ins_X (Z.of_nat B) p j quo (fQ l) z) /\ (forall z, wd vs' z = ins_X (Z.of_nat B) p j v (wd vs) z).
Proof.
  destruct (gap_exists _ _ _ _ _ _ R Room b p Sp) as (j & Hj & Fj & Full). fold B in Hj.
  assert (Hbp : (b <= p)%Z) by (destruct Sp; lia).
  (* the shifting phase *)
  assert (Ph1 : exists t1 l1 vs1, (do w <- fv_get (ch_arr t) (idx B p);
      do t1 <- (if is_null w then Ok t else do j <- find_null (S (ch_bucket t)) t (idx B p); shift_slots (S (ch_bucket t)) t (idx B p) j); Ok t1) = Ok t1 /\ retab t t1 /\ arrs VW t1 l1 vs1 /\
      (forall z, wd l1 z = if ((1 <=? off B p z) && (off B p z <=? j - p))%Z then w_shift (ch_quo_bits t) (wd l z) (wd l (z - 1)) else wd l z) /\
      (forall z, wd vs1 z = if ((1 <=? off B p z) && (off B p z <=? j - p))%Z then wd vs (z - 1) else wd vs z)).
  { rewrite (get_arr _ _ _ _ A p : fv_get (ch_arr t) (idx B p) = _). cbn [bind]. rewrite null_eq by auto. destruct (fU l p) eqn:Up; cbn [negb].
    - assert (p <> j) by congruence.
      assert (FN : find_null (S (ch_bucket t)) t (idx B p) = Ok (idx B j)).
      { apply (find_null_ok VW t l vs A D j Fj (Z.to_nat (j - p))); fold B; try lia. intros x Hx. apply Full; lia. }
      rewrite FN. cbn [bind]. destruct (shift_ok VW (ch_quo_bits t) p (Z.to_nat (j - p)) j t l vs (S (ch_bucket t)) A) as (t1 & l1 & vs1 & E & Rt & A1 & L1 & V1); auto; try (fold B; lia).
      rewrite (E : shift_slots _ t (idx B p) (idx B j) = _). cbn [bind]. exists t1, l1, vs1. auto.
    - assert (j = p). { destruct (Z.eq_dec j p); auto. rewrite Full in Up by lia. discriminate. } subst j. cbn [bind]. exists t, l, vs. split; auto. split; [apply retab_refl|]. split; auto.
      replace (p - p)%Z with 0%Z by lia. split; intros z; (replace ((1 <=? off B p z) && (off B p z <=? 0))%Z with false; auto; symmetry; apply andb_false_iff; rewrite !Z.leb_gt; lia). }
  destruct Ph1 as (t1 & l1 & vs1 & E1 & R1 & A1 & L1 & V1). rewrite (get_arr _ _ _ _ A p : fv_get (ch_arr t) (idx B p) = _) in E1. cbn [bind] in E1. apply bind_Ok_inv in E1.
  destruct E1 as (x & E1 & Ex). injection Ex as ->.
  assert (B1 : ch_bucket t1 = B) by (rewrite R1; reflexivity). assert (Q1 : ch_quo_bits t1 = ch_quo_bits t) by (rewrite R1; reflexivity).
  (* flags after the shifting phase *)
  assert (F1 : forall z, ob (wd l1 z) = fO l z /\ db (wd l1 z) = fD l z /\
     cb (wd l1 z) = (if ((1 <=? off B p z) && (off B p z <=? j - p))%Z then fC l (z - 1) else fC l z) /\
     sb (wd l1 z) = (if ((1 <=? off B p z) && (off B p z <=? j - p))%Z then true else fS l z) /\
     qw (wd l1 z) = (if ((1 <=? off B p z) && (off B p z <=? j - p))%Z then fQ l (z - 1) else fQ l z)).
  { intros z. rewrite L1. destruct ((1 <=? off B p z) && (off B p z <=? j - p))%Z; [|repeat split; auto].
    destruct (w_shift_spec (ch_quo_bits t) (wd l z) (wd l (z - 1)) (word_bound _ _ _ _ A (z - 1))) as (_ & W2 & W3 & W4 & W5 & W6). repeat split; auto. }
  unfold cht_insert_at. rewrite (get_arr _ _ _ _ A p : fv_get (ch_arr t) (idx B p) = _). cbn [bind]. rewrite E1. cbn [bind]. clear E1.
  pose proof (get_arr _ _ _ _ A1) as G1. rewrite B1 in G1. rewrite G1. cbn [bind]. rewrite is_occupied_eq. destruct (F1 b) as (Fb & _). rewrite Fb.
  assert (Sh : shl64 quo 4 = Ok (N.shiftl quo 4)).
  { unfold shl64, wshl, wrap64. change (4 <? 64)%N with true. cbv iota. f_equal. apply N.mod_small. rewrite N.shiftl_mul_pow2. pose proof (a_q _ _ _ _ A) as Q59.
    assert (P : (2 ^ N.of_nat (ch_quo_bits t) <= 2 ^ 59)%N) by (apply N.pow_le_mono_r; lia).
    change (2 ^ 4)%N with 16%N. change (2 ^ 64)%N with 18446744073709551616%N. change (2 ^ 59)%N with 576460752303423488%N in P. lia. }
  rewrite Sh. cbn [bind].
  (* the words written last; w0 is the occupied flag of slot p before *)
  assert (Ph2 : exists t3 l3, (if negb (fO l b) then
             do t <- put_word t1 (idx B b) (N.lor (wd l1 b) kOccupiedMask);
             do w <- fv_get (ch_arr t) (idx B p);
             put_word t (idx B p) (N.lor (N.lor (N.land w kOccupiedMask) (N.shiftl quo 4)) (if idx B p =? idx B b then 0%N else kShiftedMask))
           else
             do w <- fv_get (ch_arr t1) (idx B p);
             put_word t1 (idx B p) (N.lor (N.lor (N.lor (N.land w kOccupiedMask) (N.shiftl quo 4)) kContinuationMask) kShiftedMask)) = Ok t3 /\ retab t1 t3 /\ arrs VW t3 l3 vs1 /\
      forall z, ob (wd l3 z) = ins_O (Z.of_nat B) (fO l) b z /\
        cb (wd l3 z) = (if (off B p z =? 0)%Z then fO l b else cb (wd l1 z)) /\
        sb (wd l3 z) = (if (off B p z =? 0)%Z then negb (p =? b)%Z else sb (wd l1 z)) /\
        db (wd l3 z) = (if (off B p z =? 0)%Z then false else fD l z) /\
        qw (wd l3 z) = (if (off B p z =? 0)%Z then quo else qw (wd l1 z))).
  { assert (Op : forall z, (idx B z =? idx B p) = (off B p z =? 0)%Z) by (intros z; rewrite (off_idx B p p z) by (auto; lia); now replace (p - p)%Z with 0%Z by lia).
    assert (Obz : forall z, (idx B z =? idx B b) = ((z - b) mod Z.of_nat B =? 0)%Z).
    { intros z. rewrite (off_idx B b b z) by (auto; lia). unfold off. now replace (b - b)%Z with 0%Z by lia. }
    assert (Epb : (idx B p =? idx B b) = (p =? b)%Z).
    { destruct (Nat.eqb_spec (idx B p) (idx B b)) as [E|E]; symmetry; [apply Z.eqb_eq, (idx_near B HB); auto; lia|apply Z.eqb_neq; intros E'; apply E; now rewrite E']. }
    destruct (fO l b) eqn:Ob; cbn [negb].
    - rewrite G1. cbn [bind]. rewrite <- N.lor_assoc. change (N.lor kContinuationMask kShiftedMask) with 6%N.
      destruct (w_new_spec (wd l1 p) (ch_quo_bits t) quo 6 Hq eq_refl eq_refl) as (W1 & W2 & W3 & W4 & W5 & W6). rewrite <- Q1 in W1.
      destruct (put_arr _ _ _ _ A1 p _ W1) as (t3 & E3 & R3 & A3). rewrite B1 in E3, A3. rewrite E3. eexists _, _. split; [reflexivity|]. split; [now apply retab_arr|]. split; [exact A3|].
      intros z. rewrite <- B1. rewrite (upd_arr _ _ _ _ A1 z p). rewrite B1, Op. destruct (F1 z) as (Fz1 & Fz2 & _). destruct (F1 p) as (Fp1 & _).
      assert (OO : ins_O (Z.of_nat B) (fO l) b z = fO l z).
      { unfold ins_O. destruct ((z - b) mod Z.of_nat B =? 0)%Z eqn:Ez; [|apply orb_false_r]. rewrite orb_true_r. symmetry. rewrite <- Obz in Ez. apply Nat.eqb_eq in Ez.
        unfold fO in Ob |- *. unfold wd in Ob |- *. rewrite (a_ll _ _ _ _ A) in *. fold B in Ob |- *. now rewrite Ez. }
      rewrite OO. destruct (off B p z =? 0)%Z eqn:Oz.
      + assert (Hpb : (p =? b)%Z = false) by (destruct Sp as (_ & _ & _ & _ & S5); rewrite Ob in S5; apply Z.eqb_neq; lia). rewrite Hpb.
        rewrite W2, W3, W4, W5, W6, Fp1. repeat split; auto. rewrite <- Op in Oz. apply Nat.eqb_eq in Oz. unfold fO, wd. rewrite (a_ll _ _ _ _ A). fold B. now rewrite Oz.
      + repeat split; auto.
    - pose proof (word_bound _ _ _ _ A1 b) as Wb1. destruct (w_occ_spec (wd l1 b) (ch_quo_bits t1) Wb1) as (W1 & W2 & W3 & W4 & W5 & W6).
      destruct (put_arr _ _ _ _ A1 b _ W1) as (t2 & E2 & R2 & A2). rewrite B1 in E2, A2. rewrite E2. cbn [bind]. apply retab_arr in R2.
      assert (B2 : ch_bucket t2 = B) by (rewrite R2, R1; reflexivity). assert (Q2 : ch_quo_bits t2 = ch_quo_bits t) by (rewrite R2, R1; reflexivity).
      pose proof (get_arr _ _ _ _ A2 p) as G2. rewrite B2 in G2. rewrite G2. cbn [bind].
      set (l2 := upd l1 (idx B b) (N.lor (wd l1 b) kOccupiedMask)) in *.
      assert (L2 : forall z, wd l2 z = if ((z - b) mod Z.of_nat B =? 0)%Z then N.lor (wd l1 b) kOccupiedMask else wd l1 z).
      { intros z. unfold l2. rewrite <- B1 at 1. rewrite (upd_arr _ _ _ _ A1 z b). rewrite B1, Obz. reflexivity. }
      assert (F2 : forall z, ob (wd l2 z) = ins_O (Z.of_nat B) (fO l) b z /\ cb (wd l2 z) = cb (wd l1 z) /\ sb (wd l2 z) = sb (wd l1 z) /\ db (wd l2 z) = fD l z /\ qw (wd l2 z) = qw (wd l1 z)).
      { intros z. rewrite L2. unfold ins_O. destruct (F1 z) as (Fz1 & Fz2 & _). destruct (F1 b) as (_ & Fb2 & _). destruct ((z - b) mod Z.of_nat B =? 0)%Z eqn:Ez.
        - rewrite <- Obz in Ez. apply Nat.eqb_eq in Ez. assert (Ew : wd l1 z = wd l1 b) by (unfold wd; rewrite (a_ll _ _ _ _ A1), B1; now rewrite Ez). rewrite Ew in Fz2 |- *. rewrite orb_true_r, W2, W3, W4, W5, W6. repeat split; auto.
        - rewrite orb_false_r. repeat split; auto. }
      assert (Fl : exists fl, (if idx B p =? idx B b then 0%N else kShiftedMask) = fl /\ (fl < 8)%N /\ ob fl = false /\ cb fl = false /\ sb fl = negb (p =? b)%Z).
      { rewrite Epb. destruct (p =? b)%Z; eexists; split; try reflexivity; repeat split; auto. }
      destruct Fl as (fl & -> & Fl1 & Fl2 & Fl3 & Fl4).
      destruct (w_new_spec (wd l2 p) (ch_quo_bits t) quo fl Hq Fl1 Fl2) as (X1 & X2 & X3 & X4 & X5 & X6). rewrite <- Q2 in X1.
      destruct (put_arr _ _ _ _ A2 p _ X1) as (t3 & E3 & R3 & A3). rewrite B2 in E3, A3. rewrite E3. eexists _, _. split; [reflexivity|]. split; [eapply retab_trans; [exact R2|now apply retab_arr]|]. split; [exact A3|].
      intros z. rewrite <- B2. rewrite (upd_arr _ _ _ _ A2 z p). rewrite B2, Op. destruct (F2 z) as (Fz1 & Fz2 & Fz3 & Fz4 & Fz5). destruct (F2 p) as (Fp1 & _). destruct (off B p z =? 0)%Z eqn:Oz.
      + rewrite X2, X3, X4, X5, X6, Fp1. repeat split; auto. rewrite <- Op in Oz. apply Nat.eqb_eq in Oz. unfold ins_O. rewrite <- !Obz, Oz. f_equal. unfold fO, wd. rewrite (a_ll _ _ _ _ A). fold B. now rewrite Oz.
      + repeat split; auto. }
  destruct Ph2 as (t3 & l3 & E3 & R3 & A3 & F3). rewrite E3. cbn [bind]. clear E3.
  assert (B3 : ch_bucket t3 = B) by (rewrite R3, R1; reflexivity).
  set (t3' := with_counts t3 (size_up (ch_size t3)) (S (ch_used t3))).
  assert (A3' : arrs VW t3' l3 vs1) by (destruct A3; constructor; auto).
  assert (B3' : ch_bucket t3' = B) by exact B3.
  destruct (put_val _ _ _ _ A3' p v Hv) as (t4 & E4 & R4 & A4). rewrite B3' in E4, A4.
  exists j, t4, l3, (upd vs1 (idx B p) v). split; auto. split; auto. split; auto. split; [exact E4|]. split.
  { unfold retab in *. rewrite R4. unfold t3'. rewrite R3, R1. destruct t. reflexivity. }
  split; auto. split; [intros z; apply F3|]. split; [intros z; apply F3|].
  assert (Rr : forall z, rr (Z.of_nat B) p z = off B p z) by reflexivity.
  assert (Bd : forall z, (0 <= off B p z)%Z) by (intros z; apply off_bound; auto).
  split; [|split; [|split]]; intros z; destruct (F3 z) as (_ & F3c & F3s & _ & F3q); destruct (F1 z) as (_ & _ & F1c & F1s & F1q); specialize (Bd z).
  - unfold fC at 1. rewrite F3c. unfold ins_C. rewrite Rr. destruct (off B p z =? 0)%Z eqn:Oz; auto. apply Z.eqb_neq in Oz. rewrite F1c. now rewrite (proj2 (Z.leb_le 1 _)) by lia.
  - unfold fS at 1. rewrite F3s. unfold ins_S. rewrite Rr. destruct (off B p z =? 0)%Z eqn:Oz; auto. apply Z.eqb_neq in Oz. rewrite F1s. now rewrite (proj2 (Z.leb_le 1 _)) by lia.
  - unfold fQ at 1. rewrite F3q. unfold ins_X. rewrite Rr. destruct (off B p z =? 0)%Z eqn:Oz; auto. apply Z.eqb_neq in Oz. rewrite F1q. now rewrite (proj2 (Z.leb_le 1 _)) by lia.
  - rewrite <- B3'. rewrite (upd_val _ _ _ _ A3' z p). rewrite B3'. rewrite (off_idx B p p z) by (auto; lia). replace (p - p)%Z with 0%Z by lia. unfold ins_X. rewrite Rr.
    destruct (off B p z =? 0)%Z eqn:Oz; auto. apply Z.eqb_neq in Oz. rewrite V1. now rewrite (proj2 (Z.leb_le 1 _)) by lia.
Qed.
End InsertAt.
