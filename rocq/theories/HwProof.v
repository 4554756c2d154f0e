(** Proofs about the POPCNT, BMI and LZCNT branches of bit_util.hpp. *)
From Coq Require Import List NArith ZArith Lia Bool Arith.
From Verif Require Import Base Spec BitUtilModel BitUtilProof BitUtilProof2 XorMapProof HwModel.
Import ListNotations.
Ltac Zify.zify_post_hook ::= idtac.
Open Scope N_scope.

(** *** the counting instructions *)
Lemma hw_popcnt_ones : forall w x, hw_popcnt w x = N.of_nat (ones_below w x).
Proof.
  induction w; intros; auto. cbn [hw_popcnt]. rewrite IHw. change (S w) with (1 + w)%nat.
  rewrite ones_below_add, ones_below_S. change (ones_below 0 x) with 0%nat.
  rewrite N.shiftr_div_pow2. change (2 ^ N.of_nat 1) with 2.
  rewrite <- N.bit0_mod. change (N.of_nat 0) with 0. destruct (N.testbit x 0); cbn [N.b2n]; lia.
Qed.

Lemma popcnt32_hw_spec : forall x, popcnt32_hw x = N.of_nat (ones_below 32 x).
Proof. intros. unfold popcnt32_hw. rewrite hw_popcnt_ones. change (2 ^ 32) with (2 ^ N.of_nat 32). now rewrite ones_below_mod. Qed.

Lemma popcnt_word_spec : forall x, popcnt_word 1 x = N.of_nat (ones_below 8 x) /\ popcnt_word 2 x = N.of_nat (ones_below 16 x) /\
  (x < 2 ^ 64 -> popcnt_word 8 x = N.of_nat (ones_below 64 x)).
Proof. intros. split; [apply popcnt8_mod|]. split; [apply popcnt16_mod|]. apply popcnt64_spec. Qed.

Lemma popcnt_word_hw_spec : forall b x, In b [1; 2; 4; 8]%nat -> popcnt_word_hw b x = N.of_nat (ones_below (8 * b) x).
Proof.
  intros b x H. cbn [In] in H. destruct H as [<- | [<- | [<- | [<- | []]]]]; cbn [popcnt_word_hw].
  - apply popcnt8_mod.
  - apply popcnt16_mod.
  - apply popcnt32_hw_spec.
  - apply hw_popcnt_ones.
Qed.

(** *** counting one bit out of k *)
Lemma ones_strided : forall k n y, (0 < k)%nat -> (forall i, N.testbit y i = true -> i mod N.of_nat k = 0) ->
  ones_below (n * k) y = length (filter (fun j => N.testbit y (N.of_nat (j * k))) (seq 0 n)).
Proof.
  intros k n y Hk H. induction n; [reflexivity|].
  replace (S n * k)%nat with (n * k + k)%nat by lia. rewrite ones_below_add, IHn, seq_S, filter_app, app_length. f_equal.
  rewrite Nat.add_0_l. cbn [filter].
  assert (P : forall m, (m < k)%nat -> ones_below (S m) (N.shiftr y (N.of_nat (n * k))) = if N.testbit y (N.of_nat (n * k)) then 1%nat else 0%nat).
  { induction m; intros.
    - rewrite ones_below_S, N.shiftr_spec'. change (N.of_nat 0 + N.of_nat (n * k)) with (N.of_nat (n * k)).
      change (ones_below 0 _) with 0%nat. destruct (N.testbit y (N.of_nat (n * k))); reflexivity.
    - rewrite ones_below_S, IHm by lia. rewrite N.shiftr_spec'.
      destruct (N.testbit y (N.of_nat (S m) + N.of_nat (n * k))) eqn:E; [|lia]. apply H in E. exfalso.
      rewrite Nat2N.inj_mul in E. rewrite N.mod_add in E by lia. rewrite N.mod_small in E by lia. lia. }
  destruct k; [lia|]. rewrite P by lia. destruct (N.testbit y (N.of_nat (n * S k))); reflexivity.
Qed.

Lemma fields_strided : forall k n v x y, (0 < k)%nat -> (forall i, N.testbit y i = true -> i mod N.of_nat k = 0) ->
  (forall j, (j < n)%nat -> N.testbit y (N.of_nat (j * k)) = (field k x j =? v)) ->
  ones_below (n * k) y = fields_equal k n v x.
Proof.
  intros k n v x y Hk H1 H2. rewrite (ones_strided k n y Hk H1). unfold fields_equal. f_equal.
  apply filter_ext_in. intros j Hj. apply in_seq in Hj. apply H2. lia.
Qed.

Lemma field2_bits : forall x j, field 2 x j = N.b2n (N.testbit x (N.of_nat (j * 2))) + 2 * N.b2n (N.testbit x (N.of_nat (j * 2) + 1)).
Proof.
  intros. unfold field. rewrite <- (N.add_0_l (N.of_nat (j * 2))) at 2. rewrite (N.add_comm (N.of_nat (j * 2)) 1), <- !N.shiftr_spec'.
  set (y := N.shiftr x (N.of_nat (j * 2))). change (2 ^ N.of_nat 2) with 4.
  assert (B : forall i, i < 2 -> N.testbit y i = N.testbit (y mod 4) i).
  { intros. change 4 with (2 ^ 2). now rewrite N.mod_pow2_bits_low. }
  rewrite !B by lia. assert (L : y mod 4 < 4) by (apply N.mod_upper_bound; discriminate). clearbody y. generalize dependent (y mod 4).
  intros m _ L. apply N.eqb_eq. revert m L.
  apply (sweep (fun m => m =? N.b2n (N.testbit m 0) + 2 * N.b2n (N.testbit m 1)) 4). reflexivity.
Qed.

Lemma m5_testbit : forall i, N.testbit 0x5555555555555555 i = (i mod 2 =? 0) && (i <? 64).
Proof.
  intro i. destruct (N.ltb_spec i 64).
  - rewrite andb_true_r. apply eqb_prop. revert i H. apply (sweep (fun i => Bool.eqb (N.testbit 0x5555555555555555 i) (i mod 2 =? 0)) 64).
    vm_compute. reflexivity.
  - rewrite andb_false_r. now apply (testbit_high _ 64).
Qed.

Lemma popcnt11_hw_spec : forall x, x < 2 ^ 64 -> popcnt11_hw x = N.of_nat (fields_equal 2 32 3 x).
Proof.
  intros x Hx. unfold popcnt11_hw. rewrite hw_popcnt_ones. f_equal. apply (fields_strided 2 32); [lia| |].
  - intros i E. rewrite !N.land_spec, m5_testbit in E. destruct (N.eqb_spec (i mod 2) 0); auto. cbn [andb] in E. now rewrite andb_false_r in E.
  - intros j Hj. rewrite !N.land_spec, m5_testbit, N.shiftr_spec', field2_bits.
    assert (N.of_nat (j * 2) mod 2 = 0) as -> by (rewrite Nat2N.inj_mul; apply N.mod_mul; discriminate).
    destruct (N.ltb_spec (N.of_nat (j * 2)) 64); [|lia].
    destruct (N.testbit x (N.of_nat (j * 2))), (N.testbit x (N.of_nat (j * 2) + 1)); reflexivity.
Qed.

Lemma popcnt10_hw_spec : forall x, x < 2 ^ 64 -> popcnt10_hw x = N.of_nat (fields_equal 2 32 2 x).
Proof.
  intros x Hx. unfold popcnt10_hw. rewrite hw_popcnt_ones. f_equal. apply (fields_strided 2 32); [lia| |].
  - intros i E. rewrite !N.land_spec, m5_testbit in E. destruct (N.eqb_spec (i mod 2) 0); auto. cbn [andb] in E. now rewrite andb_false_r in E.
  - intros j Hj. rewrite !N.land_spec, m5_testbit, N.shiftr_spec', wnot_spec, field2_bits by lia.
    assert (N.of_nat (j * 2) mod 2 = 0) as -> by (rewrite Nat2N.inj_mul; apply N.mod_mul; discriminate).
    destruct (N.ltb_spec (N.of_nat (j * 2)) 64); [|lia].
    destruct (N.testbit x (N.of_nat (j * 2))), (N.testbit x (N.of_nat (j * 2) + 1)); reflexivity.
Qed.

Lemma m3_strided : forall v x z, z < 2 ^ 64 ->
  (forall j, (j < 21)%nat -> N.testbit z (3 * N.of_nat j) = (field 3 x j =? v)) ->
  hw_popcnt 64 (N.land z m3) = N.of_nat (fields_equal 3 21 v x).
Proof.
  intros v x z Hz H. rewrite hw_popcnt_ones. f_equal. change 64%nat with (S 63). rewrite ones_below_S.
  rewrite N.land_spec, (m3_testbit (N.of_nat 63)). change ((N.of_nat 63 mod 3 =? 0) && (N.of_nat 63 / 3 <? 21)) with false.
  rewrite andb_false_r, Nat.add_0_l. apply (fields_strided 3 21); [lia| |].
  - intros i E. rewrite N.land_spec, m3_testbit in E. change (N.of_nat 3) with 3. destruct (N.eqb_spec (i mod 3) 0); auto.
    cbn [andb] in E. now rewrite andb_false_r in E.
  - intros j Hj. replace (N.of_nat (j * 3)) with (3 * N.of_nat j) by lia. rewrite N.land_spec, m3_testbit.
    assert ((3 * N.of_nat j) mod 3 = 0) as -> by (rewrite N.mul_comm; apply N.mod_mul; discriminate).
    assert ((3 * N.of_nat j) / 3 = N.of_nat j) as -> by (rewrite N.mul_comm; apply N.div_mul; discriminate).
    destruct (N.ltb_spec (N.of_nat j) 21); [|lia]. rewrite andb_true_r. now apply H.
Qed.

Lemma land_lt64 : forall a b, a < 2 ^ 64 -> N.land a b < 2 ^ 64.
Proof. intros. eapply N.le_lt_trans; [apply land_le_l|auto]. Qed.
Lemma wnot_lt : forall x, x < 2 ^ 64 -> wnot x < 2 ^ 64.
Proof.
  intros. apply lt_pow2_bits. intros. unfold wnot. rewrite N.lnot_spec_high by auto. now apply (testbit_high x 64).
Qed.

Ltac fields3_hw x := apply m3_strided; [repeat apply land_lt64; first [assumption|now apply wnot_lt]|];
  let j := fresh "j" in let Hj := fresh "Hj" in intros j Hj; rewrite !N.land_spec, !N.shiftr_spec', ?wnot_spec, field3_bits by lia;
  destruct (N.testbit x (3 * N.of_nat j)), (N.testbit x (3 * N.of_nat j + 1)), (N.testbit x (3 * N.of_nat j + 2)); reflexivity.
Lemma popcnt111_hw_spec : forall x, x < 2 ^ 64 -> popcnt111_hw x = N.of_nat (fields_equal 3 21 7 x).
Proof. intros. unfold popcnt111_hw. fields3_hw x. Qed.
Lemma popcnt110_hw_spec : forall x, x < 2 ^ 64 -> popcnt110_hw x = N.of_nat (fields_equal 3 21 6 x).
Proof. intros. unfold popcnt110_hw. fields3_hw x. Qed.
Lemma popcnt101_hw_spec : forall x, x < 2 ^ 64 -> popcnt101_hw x = N.of_nat (fields_equal 3 21 5 x).
Proof. intros. unfold popcnt101_hw. fields3_hw x. Qed.
Lemma popcnt100_hw_spec : forall x, x < 2 ^ 64 -> popcnt100_hw x = N.of_nat (fields_equal 3 21 4 x).
Proof. intros. unfold popcnt100_hw. fields3_hw x. Qed.

(** *** bextr *)
Lemma bextr_hw_val : forall x s len, x < 2 ^ 64 -> s <= 64 -> len <= 64 -> bextr_hw x s len = (x / 2 ^ s) mod 2 ^ len.
Proof.
  intros. unfold bextr_hw, hw_bextr. rewrite !(N.mod_small _ (2 ^ 32)) by (change (2 ^ 32) with 4294967296; lia).
  rewrite !(N.mod_small _ 256) by lia. rewrite N.min_l by lia. now rewrite N.shiftr_div_pow2.
Qed.

(** *** trailing zeros *)
Lemma hw_tzcnt_spec : forall w x, x < 2 ^ N.of_nat w -> (x = 0 -> hw_tzcnt w x = N.of_nat w) /\ (x <> 0 -> lowest_one x (hw_tzcnt w x)).
Proof.
  induction w; intros x Hx.
  - change (2 ^ N.of_nat 0) with 1 in Hx. split; [reflexivity|lia].
  - cbn [hw_tzcnt]. assert (H2 : N.div2 x < 2 ^ N.of_nat w).
    { rewrite Nat2N.inj_succ, N.pow_succ_r' in Hx. rewrite N.div2_div. apply N.div_lt_upper_bound; lia. }
    destruct (IHw _ H2) as [I1 I2]. split; intro E.
    + subst x. change (N.odd 0) with false. cbv iota. rewrite (I1 eq_refl). lia.
    + destruct (N.odd x) eqn:Eo.
      * split; [now rewrite N.bit0_odd|]. intros. lia.
      * assert (Ex : x = 2 * N.div2 x). { rewrite (N.div2_odd x) at 1. rewrite Eo. cbn [N.b2n]. lia. }
        destruct I2 as [L1 L2]; [intro Z; rewrite Z in Ex; lia|]. split.
        -- rewrite N.add_1_l. rewrite Ex at 1. rewrite N.double_bits_succ. auto.
        -- intros i Hi. destruct (N.eq_dec i 0); [subst; now rewrite N.bit0_odd|].
           rewrite Ex at 1. replace i with (N.succ (i - 1)) by lia. rewrite N.double_bits_succ. apply L2. lia.
Qed.

Lemma ones_first : forall k w x, (k <= w)%nat -> (forall i, i < N.of_nat w -> N.testbit x i = (i <? N.of_nat k)) -> ones_below w x = k.
Proof.
  intros k w x Hk H. revert k Hk H. induction w; intros; [assert (k = 0)%nat by lia; subst; reflexivity|].
  rewrite ones_below_S, H by lia. destruct (N.ltb_spec (N.of_nat w) (N.of_nat k)).
  - assert (k = S w) by lia. subst. rewrite (IHw w); [lia|lia|]. intros. rewrite H by lia.
    destruct (N.ltb_spec i (N.of_nat (S w))), (N.ltb_spec i (N.of_nat w)); lia.
  - rewrite (IHw k); [lia|lia|]. intros. apply H. lia.
Qed.

Lemma ones_last : forall k w x, (k <= w)%nat -> (forall i, i < N.of_nat w -> N.testbit x i = (N.of_nat k <=? i)) -> ones_below w x = (w - k)%nat.
Proof.
  intros k w x Hk H. revert k Hk H. induction w; intros; [assert (k = 0)%nat by lia; subst; reflexivity|].
  rewrite ones_below_S, H by lia. destruct (N.leb_spec (N.of_nat k) (N.of_nat w)).
  - rewrite (IHw k); [lia|lia|]. intros. apply H. lia.
  - assert (k = S w) by lia. subst. rewrite (IHw w); [lia|lia|]. intros. rewrite H by lia.
    destruct (N.leb_spec (N.of_nat (S w)) i), (N.leb_spec (N.of_nat w) i); lia.
Qed.

Lemma lowest_split : forall x p, lowest_one x p -> exists q, x = 2 ^ p * (2 * q + 1).
Proof.
  intros x p [H1 H2]. exists (x / 2 ^ (p + 1)).
  assert (E : x = x mod 2 ^ p + 2 ^ p * (x / 2 ^ p)) by (rewrite N.add_comm; apply N.div_mod'; auto).
  assert (Z : x mod 2 ^ p = 0).
  { apply N.bits_inj. intro i. rewrite N.bits_0. destruct (N.lt_ge_cases i p).
    - rewrite N.mod_pow2_bits_low by auto. auto.
    - now apply N.mod_pow2_bits_high. }
  rewrite Z, N.add_0_l in E. rewrite E at 1. f_equal. rewrite (N.div2_odd (x / 2 ^ p)).
  assert (N.odd (x / 2 ^ p) = true) as ->.
  { rewrite <- N.bit0_odd, N.div_pow2_bits, N.add_0_l. auto. }
  cbn [N.b2n]. rewrite N.div2_div, N.div_div by (try discriminate; apply N.pow_nonzero; discriminate). rewrite N.pow_add_r. reflexivity.
Qed.

Lemma isolate : forall w x p, x < 2 ^ w -> lowest_one x p -> N.land x ((2 ^ w - x) mod 2 ^ w) = 2 ^ p.
Proof.
  intros w x p Hx HL. destruct (lowest_split x p HL) as [q E].
  assert (Hp : p < w). { destruct (N.lt_ge_cases p w); auto. destruct HL as [HL _]. rewrite (testbit_high x w) in HL by auto. discriminate. }
  assert (P0 := pow2_pos p).
  assert (Ex : x - 1 = (2 ^ p - 1) + 2 ^ p * (2 * q)) by (rewrite E; lia).
  assert (Hx0 : x <> 0) by lia.
  rewrite N.mod_small by lia.
  assert (En : 2 ^ w - x = N.lnot (x - 1) w).
  { rewrite N.lnot_sub_low. - rewrite N.ones_equiv. lia. - destruct (N.eq_dec (x - 1) 0) as [Z|Z]; [rewrite Z; change (N.log2 0) with 0; lia|]. apply N.log2_lt_pow2; lia. }
  apply N.bits_inj. intro i. rewrite N.land_spec, N.pow2_bits_eqb.
  destruct (N.lt_ge_cases i w).
  - rewrite En, N.lnot_spec_low by auto. rewrite Ex.
    rewrite testbit_join by lia. 
    replace x with (0 + 2 ^ p * (2 * q + 1)) by lia. rewrite testbit_join by lia.
    destruct (N.ltb_spec i p).
    + rewrite N.bits_0. destruct (N.eqb_spec p i); [lia|reflexivity].
    + destruct (N.eqb_spec p i).
      * subst i. rewrite N.sub_diag, N.testbit_odd_0, N.testbit_even_0. reflexivity.
      * replace (i - p) with (N.succ (i - p - 1)) by lia. rewrite N.testbit_odd_succ, N.testbit_even_succ by lia. destruct (N.testbit q (i - p - 1)); reflexivity.
  - rewrite (testbit_high x w) by auto. destruct (N.eqb_spec p i); [lia|reflexivity].
Qed.

Lemma ctz_popcnt_spec : forall w x, x < 2 ^ N.of_nat w -> (x = 0 -> ctz_popcnt w x = N.of_nat w) /\ (x <> 0 -> lowest_one x (ctz_popcnt w x)).
Proof.
  intros w x Hx. unfold ctz_popcnt. cbv zeta. assert (P0 := pow2_pos (N.of_nat w)). split; intro E.
  - subst x. rewrite N.land_0_l, N.add_0_l, hw_popcnt_ones. f_equal. rewrite N.mod_small by lia.
    apply ones_first; auto. intros i Hi. rewrite N.sub_1_r, <- N.ones_equiv. rewrite N.ones_spec_low by auto. symmetry. now apply N.ltb_lt.
  - destruct (lowest_exists x w E Hx) as (p & Hp & HL). rewrite (isolate _ x p Hx HL).
    assert (P1 := pow2_pos p). replace (2 ^ p + 2 ^ N.of_nat w - 1) with ((2 ^ p - 1) + 1 * 2 ^ N.of_nat w) by lia.
    rewrite N.mod_add by lia.
    assert (2 ^ p < 2 ^ N.of_nat w) by (apply N.pow_lt_mono_r; lia).
    rewrite N.mod_small by lia. rewrite hw_popcnt_ones.
    assert (ones_below w (2 ^ p - 1) = N.to_nat p) as ->.
    { apply ones_first; [lia|]. intros i Hi. rewrite N.sub_1_r, <- N.ones_equiv. rewrite N2Nat.id. destruct (N.ltb_spec i p).
      - now apply N.ones_spec_low. - now apply N.ones_spec_high. }
    now rewrite N2Nat.id.
Qed.

(** *** leading zeros *)
Lemma hw_lzcnt_spec : forall w x, x < 2 ^ N.of_nat w -> (x = 0 -> hw_lzcnt w x = N.of_nat w) /\
  (x <> 0 -> hw_lzcnt w x < N.of_nat w /\ highest_one x (N.of_nat w - 1 - hw_lzcnt w x)).
Proof.
  induction w; intros x Hx.
  - change (2 ^ N.of_nat 0) with 1 in Hx. split; [reflexivity|lia].
  - cbn [hw_lzcnt]. split; intro E.
    + subst x. rewrite N.bits_0. destruct (IHw 0) as [I1 _]; [apply pow2_pos|]. rewrite (I1 eq_refl). lia.
    + destruct (N.testbit x (N.of_nat w)) eqn:Eb.
      * split; [lia|]. replace (N.of_nat (S w) - 1 - 0) with (N.of_nat w) by lia. split; auto. intros. apply (testbit_high x (N.of_nat (S w))); auto. lia.
      * destruct (IHw x) as [_ I2].
        { apply lt_pow2_bits. intros i Hi. destruct (N.eq_dec i (N.of_nat w)); [now subst|]. apply (testbit_high x (N.of_nat (S w))); auto. lia. }
        destruct (I2 E) as [I3 I4]. split; [lia|]. replace (N.of_nat (S w) - 1 - (1 + hw_lzcnt w x)) with (N.of_nat w - 1 - hw_lzcnt w x) by lia. auto.
Qed.

Definition smeared (n : N) (x y : N) : Prop := forall i, N.testbit y i = true <-> exists d, d < n /\ N.testbit x (i + d) = true.
Lemma smeared_1 : forall x, smeared 1 x x.
Proof. intros x i. split; intro H. - exists 0. rewrite N.add_0_r. split; auto. lia. - destruct H as (d & H1 & H2). assert (d = 0) by lia. subst. now rewrite N.add_0_r in H2. Qed.
Lemma smeared_step : forall n x y, smeared n x y -> smeared (n + n) x (smear n y).
Proof.
  intros n x y H i. unfold smear. rewrite N.lor_spec, N.shiftr_spec', orb_true_iff, (H i), (H (i + n)). split.
  - intros [(d & H1 & H2) | (d & H1 & H2)]; [exists d; split; auto; lia|]. exists (n + d). split; [lia|]. rewrite N.add_assoc. auto.
  - intros (d & H1 & H2). destruct (N.lt_ge_cases d n); [left; eauto|]. right. exists (d - n). split; [lia|]. replace (i + n + (d - n)) with (i + d) by lia. auto.
Qed.
Lemma smeared_full : forall w x y, x < 2 ^ N.of_nat w -> smeared (N.of_nat w) x y -> x <> 0 -> forall i, N.testbit y i = (i <=? N.log2 x).
Proof.
  intros w x y Hx H E i. assert (L : N.log2 x < N.of_nat w) by (apply N.log2_lt_pow2; lia).
  destruct (N.leb_spec i (N.log2 x)).
  - apply (H i). exists (N.log2 x - i). split; [lia|]. replace (i + (N.log2 x - i)) with (N.log2 x) by lia. now apply N.bit_log2.
  - destruct (N.testbit y i) eqn:Ey; auto. apply (H i) in Ey. destruct Ey as (d & _ & Hd). rewrite N.bits_above_log2 in Hd by lia. discriminate.
Qed.
Lemma smeared_0 : forall n y, smeared n 0 y -> y = 0.
Proof. intros n y H. apply N.bits_inj. intro i. rewrite N.bits_0. destruct (N.testbit y i) eqn:E; auto. apply (H i) in E. destruct E as (d & _ & Hd). now rewrite N.bits_0 in Hd. Qed.

Lemma clz_smear : forall w x y z, x < 2 ^ N.of_nat w -> smeared (N.of_nat w) x y ->
  (forall i, i < N.of_nat w -> N.testbit z i = negb (N.testbit y i)) ->
  (x = 0 -> hw_popcnt w z = N.of_nat w) /\ (x <> 0 -> hw_popcnt w z < N.of_nat w /\ highest_one x (N.of_nat w - 1 - hw_popcnt w z)).
Proof.
  intros w x y z Hx Hs Hz. rewrite hw_popcnt_ones. split; intro E.
  - subst x. apply smeared_0 in Hs. subst y. rewrite (ones_last 0 w z); [lia|lia|]. intros. rewrite Hz, N.bits_0 by auto.
    symmetry. apply N.leb_le. lia.
  - assert (L : N.log2 x < N.of_nat w) by (apply N.log2_lt_pow2; lia).
    rewrite (ones_last (S (N.to_nat (N.log2 x))) w z).
    + split; [lia|]. replace (N.of_nat w - 1 - N.of_nat (w - S (N.to_nat (N.log2 x)))) with (N.log2 x) by lia. now apply highest_log2.
    + lia.
    + intros i Hi. rewrite Hz by auto. rewrite (smeared_full w x y Hx Hs E).
      destruct (N.leb_spec i (N.log2 x)), (N.leb_spec (N.of_nat (S (N.to_nat (N.log2 x)))) i); cbn [negb]; try lia; reflexivity.
Qed.

Lemma clz32_popcnt_spec : forall x, x < 2 ^ 32 -> (x = 0 -> clz32_popcnt x = 32) /\ (x <> 0 -> clz32_popcnt x < 32 /\ highest_one x (31 - clz32_popcnt x)).
Proof.
  intros x Hx. unfold clz32_popcnt. apply (clz_smear 32 x (smear 16 (smear 8 (smear 4 (smear 2 (smear 1 x)))))); auto.
  - change (N.of_nat 32) with (16 + 16). apply smeared_step. change 16 with (8 + 8). apply smeared_step. change 8 with (4 + 4). apply smeared_step.
    change 4 with (2 + 2). apply smeared_step. change 2 with (1 + 1). apply smeared_step, smeared_1.
  - intros. rewrite N.lxor_spec. change (2 ^ 32 - 1) with (N.ones 32). rewrite N.ones_spec_low by auto. apply xorb_true_r.
Qed.
Lemma clz64_popcnt_spec : forall x, x < 2 ^ 64 -> (x = 0 -> clz64_popcnt x = 64) /\ (x <> 0 -> clz64_popcnt x < 64 /\ highest_one x (63 - clz64_popcnt x)).
Proof.
  intros x Hx. unfold clz64_popcnt. apply (clz_smear 64 x (smear 32 (smear 16 (smear 8 (smear 4 (smear 2 (smear 1 x))))))); auto.
  - change (N.of_nat 64) with (32 + 32). apply smeared_step. change 32 with (16 + 16). apply smeared_step. change 16 with (8 + 8). apply smeared_step. change 8 with (4 + 4). apply smeared_step.
    change 4 with (2 + 2). apply smeared_step. change 2 with (1 + 1). apply smeared_step, smeared_1.
  - intros. now rewrite wnot_spec.
Qed.

(** *** select *)
Lemma sel_hw_good : forall x i, x < 2 ^ 64 -> 1 <= i -> i <= N.of_nat (ones_below 64 x) ->
  exists p, (p < 64)%nat /\ sel_hw x i = Ok (N.of_nat p + 1) /\ N.testbit x (N.of_nat p) = true /\ N.of_nat (ones_below p x) + 1 = i.
Proof.
  intros x i Hx H1 H2. unfold sel_hw.
  assert (I0 : sel_inv x i (32 + 32) (x, 0, i)).
  { split; [|split; [|split]]; auto. }
  rewrite (popcnt32_hw_spec x).
  pose proof (sel_step_inv x i 32 x 0 i _ I0 eq_refl) as I1. rewrite N.add_0_l in I1. change (N.of_nat 32) with 32 in I1.
  destruct (if N.of_nat (ones_below 32 x) <? i then _ else _) as [[y1 r1] i1].
  rewrite popcnt16_mod.
  pose proof (sel_step_inv x i 16 y1 r1 i1 _ I1 eq_refl) as I2. change (N.of_nat 16) with 16 in I2.
  destruct (if N.of_nat (ones_below 16 y1) <? i1 then _ else _) as [[y2 r2] i2].
  rewrite popcnt8_mod.
  pose proof (sel_step_inv x i 8 y2 r2 i2 _ I2 eq_refl) as I3. change (N.of_nat 8) with 8 in I3.
  destruct (if N.of_nat (ones_below 8 y2) <? i2 then _ else _) as [[y3 r3] i3].
  destruct I3 as (Hy & Hi1 & Hi2 & Hi3). rewrite land255.
  pose proof (ones_below_le 8 y3).
  destruct (sel_table i3 (y3 mod 256)) as (p & Hp & Ht & Hb & Ho); try lia.
  { change 256 with (2 ^ N.of_nat 8). rewrite ones_below_mod; lia. }
  assert (E : bind (lgetN kLtSel i3) (fun row => bind (lgetN row (y3 mod 256)) (fun v => Ok (r3 + v)))
     = bind (bind (lgetN kLtSel i3) (fun row => lgetN row (y3 mod 256))) (fun v => Ok (r3 + v))).
  { destruct (lgetN kLtSel i3); reflexivity. }
  rewrite E, Ht. cbn [bind]. clear E Ht.
  assert (Hb' : N.testbit x (N.of_nat p + r3) = true).
  { rewrite <- N.shiftr_spec', <- Hy. change 256 with (2 ^ 8) in Hb. rewrite N.mod_pow2_bits_low in Hb by lia. auto. }
  exists (N.to_nat r3 + p)%nat.
  assert (HL : N.of_nat p + r3 < 64).
  { destruct (N.lt_ge_cases (N.of_nat p + r3) 64); auto. rewrite (testbit_high x 64) in Hb' by auto. discriminate. }
  split; [lia|]. split; [f_equal; lia|]. split.
  - replace (N.of_nat (N.to_nat r3 + p)) with (N.of_nat p + r3) by lia. auto.
  - rewrite ones_below_add, Nnat.N2Nat.id, <- Hy.
    change 256 with (2 ^ N.of_nat 8) in Ho. rewrite ones_below_mod in Ho by lia. lia.
Qed.

(** with any correct count of trailing zeros the BMI2 branch selects *)
Lemma sel_bmi2_any : forall tz x i, (forall y, y < 2 ^ 64 -> y <> 0 -> lowest_one y (tz y)) ->
  x < 2 ^ 64 -> 1 <= i -> i <= N.of_nat (ones_below 64 x) ->
  exists p, (p < 64)%nat /\ sel_bmi2 tz x i = Ok (N.of_nat p + 1) /\ N.testbit x (N.of_nat p) = true /\ N.of_nat (ones_below p x) + 1 = i.
Proof.
  intros tz x i Htz Hx H1 H2. pose proof (ones_below_le 64 x).
  destruct (pdep_pow2 64 0 (i - 1) x) as (p & Hp & E1 & E2 & E3).
  { rewrite N.shiftr_0_r. lia. }
  rewrite N.add_0_l in *. rewrite N.shiftr_0_r in E3.
  exists p. split; auto. split; [|split; auto; lia].
  assert (Ei : wsub i 1 = i - 1).
  { unfold wsub. replace (i + 2 ^ 64 - 1) with ((i - 1) + 1 * 2 ^ 64) by lia. rewrite N.mod_add by discriminate.
    apply N.mod_small. change (2 ^ 64) with 18446744073709551616. lia. }
  unfold sel_bmi2, shl64. rewrite Ei. destruct (N.ltb_spec (i - 1) 64); [|lia]. cbn [bind].
  unfold wshl. rewrite N.shiftl_1_l, wrap64_small by (apply N.pow_lt_mono_r; lia).
  unfold pdep. rewrite E1. do 2 f_equal.
  destruct (Htz (2 ^ N.of_nat p)) as [C1 C2].
  { apply N.pow_lt_mono_r; lia. } { apply N.pow_nonzero. lia. }
  rewrite N.pow2_bits_eqb in C1. apply N.eqb_eq in C1. auto.
Qed.

(** *** the swaps without MMX *)
Lemma swap_pi8_plain_eq : forall x i, i < 64 -> N.testbit (swap_pi8_plain x) i = N.testbit x (N.lxor i 8).
Proof. intros. unfold swap_pi8_plain. rewrite N.lor_comm. now apply (xswap_bits 0x00FF00FF00FF00FF 0xFF00FF00FF00FF00 8). Qed.
Lemma swap_pi16_plain_eq : forall x i, i < 64 -> N.testbit (swap_pi16_plain x) i = N.testbit x (N.lxor i 16).
Proof. intros. unfold swap_pi16_plain. rewrite N.lor_comm. now apply (xswap_bits 0x0000FFFF0000FFFF 0xFFFF0000FFFF0000 16). Qed.
