(** Proofs about CHTModel: moving the entries into another table, and whole histories *)
From Coq Require Import List NArith ZArith Arith Bool Lia.
From Verif Require Import Base Spec BitUtilModel BitUtilProof XorMapProof FitVectorModel FitVectorProof HashModel HashProof CHTModel CHTRing CHTShift CHTWord CHTProof CHTInsert CHTMain.
Import ListNotations.
Local Open Scope nat_scope.

Lemma lor_shiftl_add : forall q n f, (f < 2 ^ n)%N -> N.lor (N.shiftl q n) f = (q * 2 ^ n + f)%N.
Proof.
  intros q n f Hf. assert (N0 : (2 ^ n <> 0)%N) by (apply N.pow_nonzero; lia). apply N.bits_inj. intros k. rewrite N.lor_spec. destruct (N.lt_ge_cases k n).
  - rewrite N.shiftl_spec_low by auto. simpl orb. rewrite <- (N.mod_pow2_bits_low (q * 2 ^ n + f) n k) by auto. rewrite N.add_comm, N.mod_add by auto. now rewrite N.mod_small.
  - rewrite N.shiftl_spec_high' by auto. rewrite (proj1 (bits_small f n) Hf k) by auto. rewrite orb_false_r.
    replace k with (k - n + n)%N at 2 by lia. rewrite <- N.div_pow2_bits. rewrite N.add_comm, N.div_add by auto. now rewrite N.div_small.
Qed.

(** the positions of [a, a + n) satisfying p *)
Fixpoint occl (p : Z -> bool) (a : Z) (n : nat) : list Z :=
  match n with O => [] | S n => (if p a then [a] else []) ++ occl p (a + 1) n end.
Definition occs (p : Z -> bool) (a e : Z) : list Z := occl p a (Z.to_nat (e - a)).
Lemma occs_nil : forall p a e, (e <= a)%Z -> occs p a e = [].
Proof. intros. unfold occs. replace (Z.to_nat (e - a)) with 0 by lia. reflexivity. Qed.
Lemma occs_cons : forall p a e, (a < e)%Z -> occs p a e = (if p a then [a] else []) ++ occs p (a + 1) e.
Proof. intros. unfold occs. replace (Z.to_nat (e - a)) with (S (Z.to_nat (e - (a + 1)))) by lia. reflexivity. Qed.
Lemma occs_app : forall p b e a, (a <= b)%Z -> (b <= e)%Z -> occs p a e = occs p a b ++ occs p b e.
Proof.
  intros p b e a Hab Hbe. remember (Z.to_nat (b - a)) as n eqn:En. revert a Hab En. induction n; intros a Hab En.
  - assert (a = b) by lia. subst. rewrite (occs_nil p b b) by lia. reflexivity.
  - rewrite (occs_cons p a e), (occs_cons p a b) by lia. rewrite (IHn (a + 1)%Z) by lia. now rewrite app_assoc.
Qed.
Lemma occs_none : forall p e a, (forall y, (a <= y < e)%Z -> p y = false) -> occs p a e = [].
Proof.
  intros p e a. remember (Z.to_nat (e - a)) as n eqn:En. revert a En. induction n; intros a En N.
  - apply occs_nil. lia.
  - rewrite occs_cons by lia. rewrite N by lia. apply IHn; [lia|]. intros. apply N. lia.
Qed.
Lemma occs_snoc : forall p a e, (a <= e)%Z -> occs p a (e + 1) = occs p a e ++ (if p e then [e] else []).
Proof. intros. rewrite (occs_app p e (e + 1)) by lia. rewrite (occs_cons p e (e + 1)), (occs_nil p (e + 1)) by lia. now rewrite app_nil_r. Qed.

(** slots in use that are not flagged as deleted *)
Definition fL (l : list N) (z : Z) : bool := fU l z && negb (fD l z).

Section Move.
Variables (kb VW L : nat).
Hypothesis Hkb : kb <= 63.
Hypothesis HL : 1 <= L <= 100.
Variables (t : cht) (l vs : list N) (H : Z -> Z).
Hypothesis G : base kb VW L t l vs H.
Let A := g_a _ _ _ _ _ _ _ G.
Let R := g_ring _ _ _ _ _ _ _ G.
Let B := ch_bucket t.
Let HB : 1 <= B := a_B _ _ _ _ A.
Notation rep := (rep kb VW L).
Notation upP := (upP).

Variable set : cht -> N -> N -> res cht.
Variable Good : cht -> Prop.
Hypothesis SetOK : forall nt P k v, rep nt P -> Good nt -> (k < 2 ^ N.of_nat kb)%N -> (v < 2 ^ N.of_nat VW)%N -> (forall v0, ~ P k v0) -> ch_size nt < cnt (fL l) 0 (Z.of_nat B) ->
  exists nt', set nt k v = Ok nt' /\ rep nt' (upP P k v) /\ ch_size nt' = S (ch_size nt) /\ Good nt'.

Variable c0 : Z.
Hypothesis Sc0 : fS l c0 = false.
Definition part (z : Z) (k v : N) : Prop := exists y, (c0 <= y < z)%Z /\ fL l y = true /\ hk l H y = hashf kb k /\ wd vs y = v.

Lemma total_at : forall p, (forall z, p (z + Z.of_nat B) = p z)%Z -> cnt p c0 (c0 + Z.of_nat B) = cnt p 0 (Z.of_nat B).
Proof.
  intros p PU. assert (St : forall d, cnt p d (d + Z.of_nat B) = cnt p (d + 1) (d + 1 + Z.of_nat B)).
  { intros d. rewrite (cnt_cons p d) by lia. replace (d + 1 + Z.of_nat B)%Z with (d + Z.of_nat B + 1)%Z by lia. rewrite cnt_snoc by lia. rewrite PU. lia. }
  assert (Up : forall n d, cnt p d (d + Z.of_nat B) = cnt p (d + Z.of_nat n) (d + Z.of_nat n + Z.of_nat B)).
  { induction n; intros d; [now replace (d + Z.of_nat 0)%Z with d by lia|]. rewrite St, IHn. now replace (d + 1 + Z.of_nat n)%Z with (d + Z.of_nat (S n))%Z by lia. }
  destruct (Z_le_gt_dec c0 0).
  - rewrite (Up (Z.to_nat (0 - c0)) c0). now replace (c0 + Z.of_nat (Z.to_nat (0 - c0)))%Z with 0%Z by lia.
  - symmetry. change (Z.of_nat B) with (0 + Z.of_nat B)%Z at 1. rewrite (Up (Z.to_nat c0) 0%Z). now replace (0 + Z.of_nat (Z.to_nat c0))%Z with c0 by lia.
Qed.
Lemma perU1 : forall z, fU l (z + Z.of_nat B) = fU l z.
Proof. intros z. replace (z + Z.of_nat B)%Z with (z + 1 * Z.of_nat B)%Z by lia. apply (perU _ _ _ _ _ _ R). Qed.
Lemma perL1 : forall z, fL l (z + Z.of_nat B) = fL l z.
Proof. intros z. unfold fL, fD. rewrite perU1. pose proof (wd_per l z 1) as W. rewrite (a_ll _ _ _ _ A) in W. fold B in W. replace (z + 1 * Z.of_nat B)%Z with (z + Z.of_nat B)%Z in W by lia. now rewrite W. Qed.
Lemma used_total : cnt (fU l) c0 (c0 + Z.of_nat B) = ch_used t.
Proof. rewrite (g_used _ _ _ _ _ _ _ G). apply total_at, perU1. Qed.
Lemma live_total : cnt (fL l) c0 (c0 + Z.of_nat B) = cnt (fL l) 0 (Z.of_nat B).
Proof. apply total_at, perL1. Qed.
Lemma cnt_mono : forall z y, (c0 <= z)%Z -> (z <= y)%Z -> cnt (fU l) c0 z <= cnt (fU l) c0 y.
Proof. intros z y Hz Hy. rewrite (cnt_app (fU l) z y c0) by lia. lia. Qed.

(** one entry *)
Lemma move_entry : forall z nt, (c0 <= z < c0 + Z.of_nat B)%Z -> fL l z = true -> rep nt (part z) -> Good nt -> ch_size nt = cnt (fL l) c0 z ->
  exists nt', (do q <- quotient t (wd l z);
               do x <- shl64 q (N.of_nat (ch_bucket_bits t));
               do k <- sm_ihash (N.of_nat (ch_key_bits t)) (N.lor x (N.of_nat (idx B (H z))));
               do v <- fv_get (ch_values t) (idx B z);
               set nt k v) = Ok nt' /\ rep nt' (part (z + 1)) /\ Good nt' /\ ch_size nt' = cnt (fL l) c0 (z + 1).
Proof.
  intros z nt Hz Lz Rn Gn Sn. assert (LU : forall y, fL l y = true -> fU l y = true) by (intros y Ly; unfold fL in Ly; apply andb_prop in Ly; tauto). pose proof (LU z Lz) as Uz. rewrite (quo_at _ _ _ _ A). cbn [bind]. pose proof (g_range _ _ _ _ _ _ _ G z Uz) as Hr.
  pose proof (g_bb60 _ _ _ _ _ _ _ G) as Hbb. pose proof (BN kb VW L t l vs H G) as EBN. fold B in EBN.
  assert (Lo : (N.of_nat (idx B (H z)) < 2 ^ N.of_nat (ch_bucket_bits t))%N) by (rewrite <- EBN; pose proof (idx_lt B HB (H z)); lia).
  assert (Ehk : hk l H z = (fQ l z * 2 ^ N.of_nat (ch_bucket_bits t) + N.of_nat (idx B (H z)))%N).
  { unfold hk. rewrite (lenB kb VW L t l vs H G). fold B. rewrite <- EBN. f_equal. unfold idx. pose proof (Z.mod_pos_bound (H z) (Z.of_nat B) ltac:(lia)). lia. }
  assert (P63 : (2 ^ N.of_nat kb <= 2 ^ 63)%N) by (apply N.pow_le_mono_r; lia).
  assert (Sh : shl64 (fQ l z) (N.of_nat (ch_bucket_bits t)) = Ok (N.shiftl (fQ l z) (N.of_nat (ch_bucket_bits t)))).
  { unfold shl64, wshl, wrap64. rewrite (proj2 (N.ltb_lt _ _)) by lia. f_equal. apply N.mod_small. rewrite N.shiftl_mul_pow2.
    change (2 ^ 64)%N with 18446744073709551616%N. change (2 ^ 63)%N with 9223372036854775808%N in P63. lia. }
  rewrite Sh. cbn [bind]. rewrite lor_shiftl_add by auto. rewrite <- Ehk, (g_kb _ _ _ _ _ _ _ G).
  destruct (hashf_inv kb Hkb (hk l H z) Hr) as (k & Ek & Hk & Ehash). rewrite Ek. cbn [bind]. rewrite (get_val _ _ _ _ A z : _ _ (idx B z) = _). cbn [bind].
  assert (Fresh : forall v0, ~ part z k v0).
  { intros v0 (y & Y1 & Y2 & Y3 & Y4). rewrite Ehash in Y3. pose proof (entry_unique kb VW L t l vs H G y z (LU y Y2) Uz Y3) as E. fold B in E. apply idx_near in E; auto; lia. }
  assert (Lt : ch_size nt < cnt (fL l) 0 (Z.of_nat B)).
  { rewrite <- live_total, Sn. rewrite (cnt_app (fL l) z (c0 + Z.of_nat B) c0) by lia. rewrite (cnt_cons (fL l) z) by lia. rewrite Lz. lia. }
  destruct (SetOK nt (part z) k (wd vs z) Rn Gn Hk (val_bound _ _ _ _ A z) Fresh Lt) as (nt' & E' & R' & S' & G').
  exists nt'. split; auto. split.
  - apply rep_ext with (1 := R'). intros k' v' Hk'. unfold CHTMain.upP. split.
    + intros (y & Y1 & Y2 & Y3 & Y4). destruct (N.eqb_spec k' k) as [->|Nk].
      * rewrite Ehash in Y3. destruct (Z.eq_dec y z) as [->|]; auto. pose proof (entry_unique kb VW L t l vs H G y z (LU y Y2) Uz Y3) as E. fold B in E. apply idx_near in E; auto; lia.
      * exists y. split; auto. assert (y <> z); [|lia]. intros ->. apply Nk. apply (hashf_inj kb Hkb); auto. congruence.
    + destruct (N.eqb_spec k' k) as [->|Nk].
      * intros ->. exists z. split; [lia|]. auto.
      * intros (y & Y1 & Y2). exists y. split; auto. lia.
  - split; auto. rewrite S', Sn, cnt_snoc, Lz by lia. lia.
Qed.

Lemma move_cluster_ok : forall e, fS l e = false -> (e <= c0 + Z.of_nat B)%Z ->
  forall n z F nt qs f c fuel, n = Z.to_nat (e - z) -> (c0 <= z < e)%Z -> n <= fuel -> (forall y, (z < y < e)%Z -> fS l y = true) -> fU l z = true ->
  (F <= H z)%Z -> qs = map (idx B) (occs (fO l) (F + 1) z) -> (F <= z - 1)%Z ->
  (fC l z = true -> f = Some (idx B F) /\ H z = F) -> (fC l z = false -> (F < H z)%Z /\ forall y, (F < y < H z)%Z -> fO l y = false) ->
  rep nt (part z) -> Good nt -> ch_size nt = cnt (fL l) c0 z ->
  exists nt', move_cluster set fuel t nt (idx B z) c qs f = Ok (nt', idx B e, c + n) /\ rep nt' (part e) /\ Good nt' /\ ch_size nt' = cnt (fL l) c0 e.
Proof.
  intros e Se He. induction n; intros z F nt qs f c fuel En Hz Hf Sh Uz HF Eqs HFz HC HnC Rn Gn Sn; [lia|]. destruct fuel; [lia|]. cbn [move_cluster].
  rewrite (get_arr _ _ _ _ A z : _ _ (idx B z) = _). cbn [bind]. rewrite is_occupied_eq, is_continuation_eq, is_deleted_eq. fold (fO l z). fold (fC l z). fold (fD l z).
  destruct (r_le _ _ _ _ _ _ R z Uz) as (Lz & _).
  assert (E1 : (if fO l z then qs ++ [idx B z] else qs) = map (idx B) (occs (fO l) (F + 1) (z + 1))).
  { rewrite occs_snoc by lia. rewrite map_app, <- Eqs. destruct (fO l z); simpl; auto. now rewrite app_nil_r. }
  rewrite E1.
  assert (E2 : (if fC l z then Ok (map (idx B) (occs (fO l) (F + 1) (z + 1)), f)
                else match map (idx B) (occs (fO l) (F + 1) (z + 1)) with [] => UB | x :: qs => Ok (qs, Some x) end)
               = Ok (map (idx B) (occs (fO l) (H z + 1) (z + 1)), Some (idx B (H z)))).
  { destruct (fC l z) eqn:C.
    - destruct (HC eq_refl) as (-> & ->). reflexivity.
    - destruct (HnC eq_refl) as (N1 & N2). rewrite (occs_app (fO l) (H z) (z + 1) (F + 1)) by lia. rewrite (occs_none (fO l) (H z) (F + 1)) by (intros; apply N2; lia). simpl app.
      rewrite (occs_cons (fO l) (H z)) by lia. rewrite (home_occ _ _ _ _ _ _ R z Uz). reflexivity. }
  rewrite E2. cbn [bind].
  assert (One : exists nt1, (if fD l z then Ok nt else
               do q <- quotient t (wd l z);
               do x <- shl64 q (N.of_nat (ch_bucket_bits t));
               do k <- sm_ihash (N.of_nat (ch_key_bits t)) (N.lor x (N.of_nat (idx B (H z))));
               do v <- fv_get (ch_values t) (idx B z);
               set nt k v) = Ok nt1 /\ rep nt1 (part (z + 1)) /\ Good nt1 /\ ch_size nt1 = cnt (fL l) c0 (z + 1)).
  { destruct (fD l z) eqn:Dz.
    - assert (Lz0 : fL l z = false) by (unfold fL; now rewrite Dz, andb_false_r). exists nt. split; auto. split; [|split; auto; rewrite Sn, cnt_snoc, Lz0 by lia; lia].
      apply rep_ext with (1 := Rn). intros k v _. unfold part. split; intros (y & Y1 & Y2 & Y3); exists y; (split; [|auto]); [|lia]. assert (y <> z) by congruence. lia.
    - apply move_entry; auto; [lia|]. unfold fL. now rewrite Uz, Dz. }
  destruct One as (nt1 & M1 & R1 & G1 & S1). rewrite M1. cbn [bind].
  rewrite (succ_at _ _ _ _ A z : _ _ (idx B z) = idx B (z + 1)), (get_arr _ _ _ _ A (z + 1) : _ _ (idx B (z + 1)) = _). cbn [bind]. rewrite is_shifted_eq. fold (fS l (z + 1)).
  destruct (Z.eq_dec (z + 1) e) as [Ee|Ne].
  - rewrite Ee in *. rewrite Se. exists nt1. split; [do 2 f_equal; lia|]. auto.
  - rewrite Sh by lia. assert (Uz1 : fU l (z + 1) = true) by (apply (shifted_used _ _ _ _ _ _ R), Sh; lia).
    destruct (IHn (z + 1)%Z (H z) nt1 (map (idx B) (occs (fO l) (H z + 1) (z + 1))) (Some (idx B (H z))) (S c) fuel) as (nt' & E' & R' & G' & S'); auto; try lia.
    + intros y Hy. apply Sh. lia.
    + now apply (r_adj _ _ _ _ _ _ R).
    + intros C. split; auto. apply (r_C _ _ _ _ _ _ R) in C. destruct C as (_ & _ & C). replace (z + 1 - 1)%Z with z in C by lia. auto.
    + intros C. assert (Nh : (H z < H (z + 1))%Z).
      { pose proof (r_adj _ _ _ _ _ _ R z Uz Uz1). destruct (Z.eq_dec (H z) (H (z + 1))) as [Eq|]; [|lia].
        assert (fC l (z + 1) = true) by (apply (r_C _ _ _ _ _ _ R); replace (z + 1 - 1)%Z with z by lia; auto). congruence. }
      split; auto. intros y Hy. apply (no_occ_between _ _ _ _ _ _ R z y); auto; lia.
    + exists nt'. split; [rewrite E'; do 2 f_equal; lia|]. auto.
Qed.

Lemma skip_ok : forall y, fO l y = true -> fS l y = false ->
  forall n z fuel, n = Z.to_nat (y - z) -> (z <= y)%Z -> (forall x, (z <= x < y)%Z -> fO l x && negb (fS l x) = false) -> n < fuel ->
  skip_to_cluster fuel t (idx B z) = Ok (idx B y).
Proof.
  intros y Oy Sy. induction n; intros z fuel En Hz Ns Hf; destruct fuel; try lia; cbn [skip_to_cluster];
    rewrite (get_arr _ _ _ _ A z : _ _ (idx B z) = _); cbn [bind]; rewrite is_occupied_eq, is_shifted_eq; fold (fO l z); fold (fS l z).
  - replace z with y by lia. now rewrite Oy, Sy.
  - rewrite Ns by lia. rewrite (succ_at _ _ _ _ A z : _ _ (idx B z) = idx B (z + 1)). apply IHn; try lia. intros. apply Ns. lia.
Qed.

Lemma move_all_ok : forall n fuel z nt, n = Z.to_nat (c0 + Z.of_nat B - z) -> (c0 <= z <= c0 + Z.of_nat B)%Z -> fS l z = false -> n < fuel ->
  rep nt (part z) -> Good nt -> ch_size nt = cnt (fL l) c0 z ->
  exists nt', move_all set fuel t nt (idx B z) (cnt (fU l) c0 z) = Ok nt' /\ rep nt' (part (c0 + Z.of_nat B)) /\ Good nt' /\ ch_size nt' = cnt (fL l) 0 (Z.of_nat B).
Proof.
  assert (Sc1 : fS l (c0 + Z.of_nat B) = false) by (replace (c0 + Z.of_nat B)%Z with (c0 + 1 * Z.of_nat B)%Z by lia; now rewrite (r_perS _ _ _ _ _ _ R)).
  induction n as [n IH] using lt_wf_ind. intros fuel z nt En Hz Sz Hf Rn Gn Sn. assert (LU : forall y, fL l y = true -> fU l y = true) by (intros y Ly; unfold fL in Ly; apply andb_prop in Ly; tauto). destruct fuel; [lia|]. cbn [move_all]. destruct (Nat.ltb_spec (cnt (fU l) c0 z) (ch_used t)) as [Lt|Ge].
  - assert (Ex : exists y, (z <= y < c0 + Z.of_nat B)%Z /\ fU l y = true /\ forall x, (z <= x < y)%Z -> fU l x = false).
    { rewrite <- used_total in Lt. rewrite (cnt_app (fU l) z (c0 + Z.of_nat B) c0) in Lt by lia.
      assert (Ex : exists u, (z <= u < c0 + Z.of_nat B)%Z /\ fU l u = true).
      { destruct (cnt_lt_free (fun x => negb (fU l x)) (c0 + Z.of_nat B) z) as (u & Hu & Fu).
        - destruct (Nat.lt_ge_cases (cnt (fun x => negb (fU l x)) z (c0 + Z.of_nat B)) (Z.to_nat (c0 + Z.of_nat B - z))) as [|Ge]; auto. exfalso.
          assert (All : cnt (fU l) z (c0 + Z.of_nat B) = 0); [|lia]. clear - Ge. revert Ge. generalize (c0 + Z.of_nat B)%Z. intros e. unfold cnt. remember (Z.to_nat (e - z)) as m. clear Heqm. revert z. induction m; intros z Ge; simpl in *; auto.
          assert (Cm : forall p n a, count p a n <= n) by (intros p; induction n; intros a; simpl; [lia|]; specialize (IHn (a + 1)%Z); destruct (p a); lia).
          pose proof (Cm (fun x => negb (fU l x)) m (z + 1)%Z). destruct (fU l z); simpl in *; [lia|]. apply IHm. lia.
        - exists u. split; auto. now apply negb_false_iff. }
      destruct Ex as (u & Hu & Uu). destruct (first_between (fU l) z u) as (y & Hy & Uy & Ny); [lia|auto|]. exists y. split; [lia|]. split; auto. }
    destruct Ex as (y & Hy & Uy & Ny).
    assert (Sy : fS l y = false).
    { destruct (Z.eq_dec y z) as [->|]; auto. destruct (fS l y) eqn:E; auto. apply (shifted_prev _ _ _ _ _ _ R) in E. rewrite Ny in E by lia. discriminate. }
    assert (Hyy : H y = y) by now apply (unshifted_home _ _ _ _ _ _ R).
    assert (Oy : fO l y = true) by (rewrite <- Hyy; now apply (home_occ _ _ _ _ _ _ R)).
    fold B. rewrite (skip_ok y Oy Sy (Z.to_nat (y - z)) z (S B)); try lia.
    2:{ intros x Hx. assert (fO l x = false); [|now rewrite H0]. specialize (Ny x Hx). unfold fU in Ny. apply orb_false_iff in Ny. destruct Ny as (Ny & _). now apply orb_false_iff in Ny. }
    cbn [bind].
    destruct (first_between (fun x => negb (fS l x)) (y + 1) (c0 + Z.of_nat B)) as (e & He & Pe & Ne); [lia|now rewrite Sc1|]. apply negb_true_iff in Pe.
    assert (Cz : cnt (fU l) c0 y = cnt (fU l) c0 z) by (rewrite (cnt_app (fU l) z y c0) by lia; rewrite (cnt_none (fU l) y z) by auto; lia).
    assert (Pz : rep nt (part y)).
    { apply rep_ext with (1 := Rn). intros k v _. unfold part. split; intros (x & X1 & X2 & X3); exists x; (split; [|auto]); [|lia].
      destruct (Z_lt_le_dec x z); [lia|]. apply LU in X2. rewrite Ny in X2 by lia. discriminate. }
    assert (Cl : cnt (fL l) c0 y = cnt (fL l) c0 z). { rewrite (cnt_app (fL l) z y c0) by lia. rewrite (cnt_none (fL l) y z); [lia|]. intros x Hx. unfold fL. now rewrite Ny. }
    destruct (move_cluster_ok e Pe ltac:(lia) (Z.to_nat (e - y)) y (y - 1)%Z nt [] None (cnt (fU l) c0 z) (S B)) as (nt1 & E1 & R1 & G1 & S1); auto; try lia.
    + intros x Hx. specialize (Ne x ltac:(lia)). now apply negb_false_iff in Ne.
    + now rewrite occs_nil by lia.
    + intros C. exfalso. apply (r_C _ _ _ _ _ _ R) in C. destruct C as (_ & C1 & C2). destruct (r_le _ _ _ _ _ _ R _ C1). lia.
    + intros _. split; [lia|]. intros; lia.
    + rewrite E1. cbn [bind]. replace (cnt (fU l) c0 z + Z.to_nat (e - y)) with (cnt (fU l) c0 e).
      * apply IH with (m := Z.to_nat (c0 + Z.of_nat B - e)); auto; lia.
      * rewrite (cnt_app (fU l) y e c0) by lia. rewrite Cz. f_equal. apply cnt_full; [lia|]. intros x Hx. destruct (Z.eq_dec x y) as [->|]; auto.
        apply (shifted_used _ _ _ _ _ _ R). specialize (Ne x ltac:(lia)). now apply negb_false_iff in Ne.
  - exists nt. split; auto. assert (Eu : cnt (fU l) z (c0 + Z.of_nat B) = 0). { pose proof used_total as UT. rewrite (cnt_app (fU l) z (c0 + Z.of_nat B) c0) in UT by lia. lia. }
    assert (Nu : forall x, (z <= x < c0 + Z.of_nat B)%Z -> fU l x = false).
    { intros x Hx. destruct (fU l x) eqn:Ux; auto. exfalso. rewrite (cnt_app (fU l) x (c0 + Z.of_nat B) z) in Eu by lia. rewrite (cnt_cons (fU l) x) in Eu by lia. rewrite Ux in Eu. lia. }
    split.
    2:{ split; auto. rewrite Sn, <- live_total. rewrite (cnt_app (fL l) z (c0 + Z.of_nat B) c0) by lia. rewrite (cnt_none (fL l) (c0 + Z.of_nat B) z); [lia|]. intros x Hx. unfold fL. now rewrite Nu. }
    apply rep_ext with (1 := Rn). intros k v _. unfold part. split; intros (x & X1 & X2 & X3); exists x; (split; [|auto]); [|lia].
    destruct (Z_lt_le_dec x z); [lia|]. apply LU in X2. rewrite Nu in X2 by lia. discriminate.
Qed.
End Move.
