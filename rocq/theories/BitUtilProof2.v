(** Proofs about the 3-bit field counters, ctz/clz, sel and the 256-bit words. *)
From Coq Require Import List NArith ZArith Lia Bool Arith.
From Coq Require Import ZifyBool ZifyNat ZifyN.
From Verif Require Import Base Spec BitUtilModel BitUtilProof.
Import ListNotations.
Ltac Zify.zify_post_hook ::= Z.div_mod_to_equations.
Open Scope N_scope.

Definition b2n (b : bool) : N := if b then 1 else 0.

Fixpoint enc (n : nat) (f : nat -> bool) : N :=
  match n with O => 0 | S n => b2n (f O) + 2 ^ 3 * enc n (fun j => f (S j)) end.

Lemma enc_S : forall n f, enc (S n) f = b2n (f O) + 2 ^ 3 * enc n (fun j => f (S j)).
Proof. reflexivity. Qed.

Lemma enc_testbit : forall n f i, N.testbit (enc n f) i =
  (i mod 3 =? 0) && (i / 3 <? N.of_nat n) && f (N.to_nat (i / 3)).
Proof.
  induction n; intros.
  - simpl enc. rewrite N.bits_0. destruct (N.ltb_spec (i/3) (N.of_nat 0)); [lia|]. now rewrite andb_false_r.
  - rewrite enc_S, testbit_join by (destruct (f O); reflexivity).
    destruct (N.ltb_spec i 3).
    + destruct i; [|destruct p as [[]|[]|]; try lia]; simpl; destruct (f O); auto.
    + rewrite IHn.
      assert (E: i / 3 = N.succ ((i - 3) / 3)) by lia.
      replace ((i - 3) mod 3) with (i mod 3) by lia.
      replace (N.to_nat (i / 3)) with (S (N.to_nat ((i - 3) / 3))) by lia.
      f_equal. f_equal. lia.
Qed.

Lemma u3_join : forall n f M,
  N.land (enc (S (S n)) f + N.shiftr (enc (S (S n)) f) 3) (3 + 64 * M)
  = (b2n (f O) + b2n (f 1%nat)) + 64 * N.land (enc n (fun j => f (S (S j))) + N.shiftr (enc n (fun j => f (S (S j)))) 3) M.
Proof.
  intros. rewrite !enc_S. set (b := enc n _).
  assert (Hb : b mod 8 <= 1).
  { subst b. destruct n; [cbn; lia|]. rewrite enc_S. change (2 ^ 3) with 8. destruct (f _); simpl b2n; lia. }
  change (2 ^ 3) with 8. rewrite !N.shiftr_div_pow2. change (2 ^ 3) with 8.
  set (b0 := b2n (f O)). set (b1 := b2n (f 1%nat)).
  assert (b0 <= 1) by (subst b0; destruct (f O); simpl; lia).
  assert (b1 <= 1) by (subst b1; destruct (f 1%nat); simpl; lia).
  clearbody b b0 b1.
  replace (b0 + 8 * (b1 + 8 * b) + (b0 + 8 * (b1 + 8 * b)) / 8)
    with ((b0 + b1 + 8 * (b1 + b mod 8)) + 2 ^ 6 * (b + b / 8)) by (change (2 ^ 6) with 64; lia).
  change 64 with (2 ^ 6) at 1. rewrite land_join by (change (2 ^ 6) with 64; lia).
  change (2 ^ 6) with 64. f_equal.
  change 3 with (N.ones 2). rewrite N.land_ones. change (2 ^ 2) with 4. lia.
Qed.

Lemma sum3_enc : forall f, sum3 (enc 21 f) =
  b2n (f 0%nat) + b2n (f 1%nat) + b2n (f 2%nat) + b2n (f 3%nat) + b2n (f 4%nat) + b2n (f 5%nat)
  + b2n (f 6%nat) + b2n (f 7%nat) + b2n (f 8%nat) + b2n (f 9%nat) + b2n (f 10%nat) + b2n (f 11%nat)
  + b2n (f 12%nat) + b2n (f 13%nat) + b2n (f 14%nat) + b2n (f 15%nat) + b2n (f 16%nat) + b2n (f 17%nat)
  + b2n (f 18%nat) + b2n (f 19%nat) + b2n (f 20%nat).
Proof.
  intros. unfold sum3.
  assert (Hlt : enc 21 f < 2 ^ 61).
  { apply lt_pow2_bits. intros. rewrite enc_testbit. destruct (N.ltb_spec (i / 3) (N.of_nat 21)).
    - destruct (N.eqb_spec (i mod 3) 0); auto. lia.
    - now rewrite andb_false_r. }
  rewrite (wrap64_small (enc 21 f + _)).
  2:{ pose proof (shiftr_le (enc 21 f) 3). change (2 ^ 61) with 2305843009213693952 in *. change (2 ^ 64) with 18446744073709551616. lia. }
  change 0x30C30C30C30C30C3 with (3 + 64 * (3 + 64 * (3 + 64 * (3 + 64 * (3 + 64 * (3 + 64 * (3 + 64 * (3 + 64 * (3 + 64 * (3 + 64 * 3)))))))))).
  rewrite !u3_join. cbv beta.
  replace (N.land (enc 1 (fun j => f (S (S (S (S (S (S (S (S (S (S (S (S (S (S (S (S (S (S (S (S j)))))))))))))))))))))
   + N.shiftr (enc 1 (fun j => f (S (S (S (S (S (S (S (S (S (S (S (S (S (S (S (S (S (S (S (S j)))))))))))))))))))))) 3) 3)
  with (b2n (f 20%nat)) by (rewrite enc_S; destruct (f 20%nat); reflexivity).
  assert (B : forall j, b2n (f j) <= 1) by (intro j; destruct (f j); simpl; lia).
  pose proof (B 0%nat); pose proof (B 1%nat); pose proof (B 2%nat); pose proof (B 3%nat); pose proof (B 4%nat);
  pose proof (B 5%nat); pose proof (B 6%nat); pose proof (B 7%nat); pose proof (B 8%nat); pose proof (B 9%nat);
  pose proof (B 10%nat); pose proof (B 11%nat); pose proof (B 12%nat); pose proof (B 13%nat); pose proof (B 14%nat);
  pose proof (B 15%nat); pose proof (B 16%nat); pose proof (B 17%nat); pose proof (B 18%nat); pose proof (B 19%nat);
  pose proof (B 20%nat).
  set (d0 := b2n (f 0%nat) + b2n (f 1%nat)). set (d1 := b2n (f 2%nat) + b2n (f 3%nat)).
  set (d2 := b2n (f 4%nat) + b2n (f 5%nat)). set (d3 := b2n (f 6%nat) + b2n (f 7%nat)).
  set (d4 := b2n (f 8%nat) + b2n (f 9%nat)). set (d5 := b2n (f 10%nat) + b2n (f 11%nat)).
  set (d6 := b2n (f 12%nat) + b2n (f 13%nat)). set (d7 := b2n (f 14%nat) + b2n (f 15%nat)).
  set (d8 := b2n (f 16%nat) + b2n (f 17%nat)). set (d9 := b2n (f 18%nat) + b2n (f 19%nat)).
  set (dt := b2n (f 20%nat)).
  transitivity (d0 + d1 + d2 + d3 + d4 + d5 + d6 + d7 + d8 + d9 + dt).
  2:{ subst d0 d1 d2 d3 d4 d5 d6 d7 d8 d9 dt. lia. }
  assert (d0 <= 2) by lia. assert (d1 <= 2) by lia. assert (d2 <= 2) by lia. assert (d3 <= 2) by lia.
  assert (d4 <= 2) by lia. assert (d5 <= 2) by lia. assert (d6 <= 2) by lia. assert (d7 <= 2) by lia.
  assert (d8 <= 2) by lia. assert (d9 <= 2) by lia. assert (dt <= 1) by lia.
  clearbody d0 d1 d2 d3 d4 d5 d6 d7 d8 d9 dt. clear B Hlt. 
  repeat match goal with H : b2n _ <= 1 |- _ => clear H end. clear f.
  pose (D := d0 + 64 * (d1 + 64 * (d2 + 64 * (d3 + 64 * (d4 + 64 * (d5 + 64 * (d6 + 64 * (d7 + 64 * (d8 + 64 * d9))))))))).
  replace (d0 + 64 * (d1 + 64 * (d2 + 64 * (d3 + 64 * (d4 + 64 * (d5 + 64 * (d6 + 64 * (d7 + 64 * (d8 + 64 * (d9 + 64 * dt))))))))))
    with (D + 2 ^ 60 * dt) by (subst D; change (2 ^ 60) with 1152921504606846976; lia).
  assert (HD : D < 2 ^ 60) by (subst D; change (2 ^ 60) with 1152921504606846976; lia).
  assert (E : N.shiftr (D + 2 ^ 60 * dt) 60 = dt).
  { rewrite N.shiftr_div_pow2, N.mul_comm, N.div_add, N.div_small by (auto; apply N.pow_nonzero; lia). lia. }
  rewrite E. clear E HD.
  pose (S := d0 + d1 + d2 + d3 + d4 + d5 + d6 + d7 + d8 + d9).
  pose (R := d0 + 2 ^ 6 * (d0 + d1) + 2 ^ 12 * (d0 + d1 + d2) + 2 ^ 18 * (d0 + d1 + d2 + d3) + 2 ^ 24 * (d0 + d1 + d2 + d3 + d4)
     + 2 ^ 30 * (d0 + d1 + d2 + d3 + d4 + d5) + 2 ^ 36 * (d0 + d1 + d2 + d3 + d4 + d5 + d6)
     + 2 ^ 42 * (d0 + d1 + d2 + d3 + d4 + d5 + d6 + d7) + 2 ^ 48 * (d0 + d1 + d2 + d3 + d4 + d5 + d6 + d7 + d8)).
  pose (Q := (d1 + d2 + d3 + d4 + d5 + d6 + d7 + d8 + d9) + 2 ^ 6 * (d2 + d3 + d4 + d5 + d6 + d7 + d8 + d9)
     + 2 ^ 12 * (d3 + d4 + d5 + d6 + d7 + d8 + d9) + 2 ^ 18 * (d4 + d5 + d6 + d7 + d8 + d9) + 2 ^ 24 * (d5 + d6 + d7 + d8 + d9)
     + 2 ^ 30 * (d6 + d7 + d8 + d9) + 2 ^ 36 * (d7 + d8 + d9) + 2 ^ 42 * (d8 + d9) + 2 ^ 48 * d9).
  assert (E : 0x0041041041041041 * (D + 2 ^ 60 * dt) = R + 2 ^ 54 * S + 2 ^ 60 * (Q + 0x0041041041041041 * dt)).
  { subst D S R Q. 
    repeat match goal with |- context[2 ^ ?k] => let v := eval compute in (2 ^ k) in change (2 ^ k) with v end. lia. }
  rewrite E. clear E. set (Q' := Q + _ * dt).
  assert (HS : S <= 20) by (subst S; lia).
  assert (HR : R < 2 ^ 54).
  { subst R. repeat match goal with |- context[2 ^ ?k] => let v := eval compute in (2 ^ k) in change (2 ^ k) with v end. lia. }
  change (d0 + d1 + d2 + d3 + d4 + d5 + d6 + d7 + d8 + d9 + dt) with (S + dt).
  clearbody Q' S R. clear Q D.
  change 0x3F with (N.ones 6). rewrite N.land_ones, N.shiftr_div_pow2. unfold wrap64 at 2.
  replace ((R + 2 ^ 54 * S + 2 ^ 60 * Q') mod 2 ^ 64) with (R + 2 ^ 54 * (S + 64 * (Q' mod 16))).
  2:{ apply N.mod_unique with (Q' / 16); repeat match goal with |- context[2 ^ ?k] => let v := eval compute in (2 ^ k) in change (2 ^ k) with v end.
      change (2 ^ 54) with 18014398509481984 in HR. lia.
      lia. }
  rewrite (N.mul_comm (2 ^ 54)), N.div_add, N.div_small by (auto; discriminate).
  rewrite wrap64_small; repeat match goal with |- context[2 ^ ?k] => let v := eval compute in (2 ^ k) in change (2 ^ k) with v end; lia.
Qed.

Lemma fields3_sum : forall v x, N.of_nat (fields_equal 3 21 v x) = sum3 (enc 21 (fun j => field 3 x j =? v)).
Proof.
  intros. rewrite sum3_enc. rewrite !fields_equal_S. change (fields_equal 3 0 v x) with 0%nat.
  assert (E : forall b : bool, N.of_nat (if b then 1 else 0)%nat = b2n b) by (destruct b; reflexivity).
  rewrite !Nnat.Nat2N.inj_add, !E. simpl (N.of_nat 0). lia.
Qed.

Lemma mod8_bits : forall y, y mod 8 = b2n (N.testbit y 0) + 2 * b2n (N.testbit y 1) + 4 * b2n (N.testbit y 2).
Proof.
  intro y.
  assert (B : forall i, i < 3 -> N.testbit y i = N.testbit (y mod 8) i).
  { intros. change 8 with (2 ^ 3). now rewrite N.mod_pow2_bits_low. }
  rewrite !B by lia. assert (y mod 8 < 8) by lia. generalize dependent (y mod 8). intros m _ H.
  apply N.eqb_eq. revert m H.
  apply (sweep (fun m => m =? b2n (N.testbit m 0) + 2 * b2n (N.testbit m 1) + 4 * b2n (N.testbit m 2)) 8). reflexivity.
Qed.

Lemma field3_bits : forall x j, field 3 x j =
  b2n (N.testbit x (3 * N.of_nat j)) + 2 * b2n (N.testbit x (3 * N.of_nat j + 1)) + 4 * b2n (N.testbit x (3 * N.of_nat j + 2)).
Proof.
  intros. unfold field. change (2 ^ N.of_nat 3) with 8. rewrite mod8_bits, !N.shiftr_spec'.
  replace (N.of_nat (j * 3)) with (3 * N.of_nat j) by lia.
  rewrite N.add_0_l, (N.add_comm 1), (N.add_comm 2). reflexivity.
Qed.

Lemma m3_testbit : forall i, N.testbit m3 i = (i mod 3 =? 0) && (i / 3 <? 21).
Proof.
  intros. change m3 with (enc 21 (fun _ => true)). rewrite enc_testbit. now rewrite andb_true_r.
Qed.

Ltac fields3 x v :=
  let i := fresh "i" in
  rewrite (fields3_sum v x); f_equal; apply N.bits_inj; intro i;
  rewrite !N.land_spec, m3_testbit, enc_testbit;
  destruct (N.eqb_spec (i mod 3) 0); [|now rewrite !andb_false_r];
  change (N.of_nat 21) with 21; destruct (N.ltb_spec (i / 3) 21); [|now rewrite !andb_false_r];
  rewrite !N.shiftr_spec', ?wnot_spec by lia; rewrite field3_bits;
  replace (3 * N.of_nat (N.to_nat (i / 3))) with i by lia;
  destruct (N.testbit x i), (N.testbit x (i + 1)), (N.testbit x (i + 2)); reflexivity.

Lemma popcnt111_spec : forall x, x < 2 ^ 64 -> popcnt111 x = N.of_nat (fields_equal 3 21 7 x).
Proof. intros. unfold popcnt111. fields3 x 7. Qed.
Lemma popcnt110_spec : forall x, x < 2 ^ 64 -> popcnt110 x = N.of_nat (fields_equal 3 21 6 x).
Proof. intros. unfold popcnt110. fields3 x 6. Qed.
Lemma popcnt101_spec : forall x, x < 2 ^ 64 -> popcnt101 x = N.of_nat (fields_equal 3 21 5 x).
Proof. intros. unfold popcnt101. fields3 x 5. Qed.
Lemma popcnt100_spec : forall x, x < 2 ^ 64 -> popcnt100 x = N.of_nat (fields_equal 3 21 4 x).
Proof. intros. unfold popcnt100. fields3 x 4. Qed.

(** *** ctz / clz *)
Definition extreme (v : bool) (p i : N) : Prop := if v then i <= p else p <= i.

Definition bs_inv (v : bool) (w L p k : N) (yc : N * N) : Prop :=
  N.testbit (fst yc) p = true /\
  (forall i, N.testbit (fst yc) i = true -> i < w /\ N.shiftr i k = N.shiftr p k /\ extreme v p i) /\
  (forall j, N.testbit (snd yc) j = (k <=? j) && (j <? L) && Bool.eqb (N.testbit p j) v).

Lemma shiftr_step : forall i k, N.shiftr i k = 2 * N.shiftr i (N.succ k) + b2n (N.testbit i k).
Proof.
  intros. replace (N.succ k) with (k + 1) by lia. rewrite <- N.shiftr_shiftr.
  set (m := N.shiftr i k). replace (N.testbit i k) with (N.testbit m 0) by (subst m; rewrite N.shiftr_spec'; f_equal; lia).
  rewrite N.shiftr_div_pow2. change (2 ^ 1) with 2. 
  rewrite N.bit0_odd. rewrite (N.div_mod' m 2) at 1. f_equal. rewrite <- N.bit0_mod, N.bit0_odd. now destruct (N.odd m).
Qed.

Lemma shiftr_mono : forall a b k, a <= b -> N.shiftr a k <= N.shiftr b k.
Proof. intros. rewrite !N.shiftr_div_pow2. apply N.div_le_mono; auto. apply N.pow_nonzero. lia. Qed.

Lemma bs_step_inv : forall v w L p k M yc,
  k < L -> (forall i, i < w -> N.testbit M i = Bool.eqb (N.testbit i k) v) ->
  bs_inv v w L p (N.succ k) yc -> bs_inv v w L p k (bs_step M (2 ^ k) yc).
Proof.
  intros v w L p k M [y c] HkL HM (Hp & Hi & Hc). simpl in *. unfold bs_step.
  assert (Hpw : p < w) by (now apply Hi).
  assert (Hsel : forall i, N.testbit y i = true -> N.testbit M i = true -> Bool.eqb (N.testbit p k) v = true).
  { intros i Hy HMi. destruct (Hi i Hy) as (Hw & Hs & He). rewrite HM in HMi by auto.
    destruct (Bool.eqb (N.testbit p k) v) eqn:Ep; auto. exfalso.
    pose proof (shiftr_step i k). pose proof (shiftr_step p k). rewrite Hs in H.
    apply Bool.eqb_prop in HMi. apply Bool.eqb_false_iff in Ep.
    destruct v; simpl in He; apply (shiftr_mono _ _ k) in He;
    destruct (N.testbit i k), (N.testbit p k); simpl in *; try congruence; lia. }
  destruct (N.eqb_spec (N.land y M) 0) as [E|E].
  - (* no bit selected: p's bit differs *)
    assert (Hnp : Bool.eqb (N.testbit p k) v = false).
    { rewrite <- HM by auto. rewrite <- (andb_true_l (N.testbit M p)), <- Hp, <- N.land_spec, E. apply N.bits_0. }
    split; [auto|split].
    + simpl. intros i Hy. destruct (Hi i Hy) as (Hw & Hs & He). split; [auto|split]; auto.
      rewrite (shiftr_step i k), (shiftr_step p k), Hs. do 2 f_equal.
      assert (Bool.eqb (N.testbit i k) v = false).
      { rewrite <- HM by auto. rewrite <- (andb_true_l (N.testbit M i)), <- Hy, <- N.land_spec, E. apply N.bits_0. }
      apply Bool.eqb_false_iff in H. apply Bool.eqb_false_iff in Hnp. destruct (N.testbit i k), (N.testbit p k), v; congruence.
    + simpl. intro j. rewrite Hc. destruct (N.eq_dec j k).
      * subst. rewrite Hnp. now rewrite !andb_false_r.
      * f_equal. f_equal. lia.
  - assert (exists i, N.testbit (N.land y M) i = true) as [i0 Hi0].
    { exists (N.log2 (N.land y M)). now apply N.bit_log2. }
    rewrite N.land_spec in Hi0. apply andb_true_iff in Hi0. destruct Hi0 as [Hy0 HM0].
    pose proof (Hsel i0 Hy0 HM0) as Hpk.
    split; [|split]; simpl.
    + rewrite N.land_spec, Hp, HM by auto. now rewrite Hpk.
    + intros i Hyi. rewrite N.land_spec in Hyi. apply andb_true_iff in Hyi. destruct Hyi as [Hy HMi].
      destruct (Hi i Hy) as (Hw & Hs & He). split; [auto|split]; auto.
      rewrite (shiftr_step i k), (shiftr_step p k), Hs. do 2 f_equal.
      rewrite HM in HMi by auto. apply Bool.eqb_prop in HMi. apply Bool.eqb_prop in Hpk. congruence.
    + intro j. rewrite N.lor_spec, Hc. destruct (N.eq_dec j k).
      * subst. rewrite N.pow2_bits_true, Hpk. rewrite orb_true_r. 
        destruct (N.leb_spec k k), (N.ltb_spec k L); simpl; auto; lia.
      * rewrite N.pow2_bits_false by auto. rewrite orb_false_r. f_equal. f_equal. lia.
Qed.

Definition mask_check (M : N) (w : nat) (k : N) (v : bool) : bool :=
  forallb (fun i => Bool.eqb (N.testbit M i) (Bool.eqb (N.testbit i k) v)) (map N.of_nat (seq 0 w)).

Lemma mask_check_ok : forall M w k v, mask_check M w k v = true ->
  forall i, i < N.of_nat w -> N.testbit M i = Bool.eqb (N.testbit i k) v.
Proof.
  intros. apply Bool.eqb_prop. now apply (sweep (fun i => Bool.eqb (N.testbit M i) (Bool.eqb (N.testbit i k) v)) w).
Qed.

Ltac bs_inv_step w k := match goal with |- bs_inv ?v ?W ?L ?p _ (bs_step ?M _ ?yc) =>
  apply (bs_step_inv v W L p k M yc); [reflexivity | apply (mask_check_ok M w); vm_compute; reflexivity | ] end.

Lemma bs_inv_start : forall v w L p x, x < 2 ^ w -> N.testbit x p = true -> w = 2 ^ L ->
  (forall i, N.testbit x i = true -> extreme v p i) -> bs_inv v w L p L (x, 0).
Proof.
  intros. assert (B : forall i, N.testbit x i = true -> i < w).
  { intros. destruct (N.lt_ge_cases i w); auto. rewrite (testbit_high x w) in H3 by auto. discriminate. }
  split; [auto|split]; simpl.
  - intros i Hi. split; [auto|split]; auto. rewrite !N.shiftr_div_pow2, <- H1, !N.div_small; auto.
  - intros. destruct (N.leb_spec L j), (N.ltb_spec j L); simpl; auto; lia.
Qed.

Lemma bs_final : forall v L p w yc, bs_inv v w L p 0 yc -> w = 2 ^ L ->
  snd yc = if v then p else N.lxor p (N.ones L).
Proof.
  intros. destruct H as (Hp & Hi & Hc). apply N.bits_inj; intro j. rewrite Hc. destruct (N.leb_spec 0 j); [|lia]. simpl.
  assert (p < w) by (now apply Hi).
  destruct (N.ltb_spec j L); simpl.
  - destruct v; [now destruct (N.testbit p j)|]. rewrite N.lxor_spec, N.ones_spec_low by auto. now destruct (N.testbit p j).
  - destruct v; [|rewrite N.lxor_spec, N.ones_spec_high by auto]; rewrite (testbit_high p L); subst; auto.
Qed.

Lemma lowest_exists : forall x w, x <> 0 -> x < 2 ^ N.of_nat w ->
  exists p, p < N.of_nat w /\ N.testbit x p = true /\ forall i, i < p -> N.testbit x i = false.
Proof.
  intros x w. revert x. induction w; intros x Hx Hw.
  - change (2 ^ N.of_nat 0) with 1 in Hw. lia.
  - destruct (N.testbit x 0) eqn:E0.
    + exists 0. split; [lia|split]; auto. intros; lia.
    + assert (x = 2 * N.div2 x). { rewrite N.bit0_odd in E0. rewrite (N.div2_odd x) at 1. rewrite E0. simpl. lia. }
      assert (N.div2 x <> 0) by lia.
      destruct (IHw (N.div2 x)) as (p & Hp & Hb & Hlow); auto.
      { replace (N.of_nat (S w)) with (N.succ (N.of_nat w)) in Hw by lia. rewrite N.pow_succ_r' in Hw. lia. }
      exists (N.succ p). split; [lia|]. rewrite N.div2_spec, N.shiftr_spec' in Hb.
      replace (p + 1) with (N.succ p) in Hb by lia. split; auto.
      intros i Hi. destruct (N.eq_dec i 0); [subst; auto|].
      specialize (Hlow (i - 1)). rewrite N.div2_spec, N.shiftr_spec' in Hlow.
      replace (i - 1 + 1) with i in Hlow by lia. apply Hlow. lia.
Qed.

Lemma lxor_ones_twice : forall p m, N.lxor (N.lxor p m) m = p.
Proof. intros. now rewrite N.lxor_assoc, N.lxor_nilpotent, N.lxor_0_r. Qed.

Lemma ctz64_spec : forall x, x <> 0 -> x < 2 ^ 64 ->
  N.testbit x (ctz64 x) = true /\ (forall i, i < ctz64 x -> N.testbit x i = false).
Proof.
  intros x Hx Hw. destruct (lowest_exists x 64) as (p & Hp & Hb & Hlow); auto.
  assert (ctz64 x = p) as ->; auto.
  unfold ctz64. destruct (N.eqb_spec x 0); [congruence|].
  erewrite (bs_final false 6 p 64); [apply (lxor_ones_twice p 63)| |reflexivity].
  bs_inv_step 64%nat 0. bs_inv_step 64%nat 1.
  bs_inv_step 64%nat 2. bs_inv_step 64%nat 3.
  bs_inv_step 64%nat 4. bs_inv_step 64%nat 5.
  apply bs_inv_start; auto. intros. simpl. destruct (N.le_gt_cases p i); auto. rewrite Hlow in H by auto. discriminate.
Qed.

Lemma ctz32_spec : forall x, x <> 0 -> x < 2 ^ 32 ->
  N.testbit x (ctz32 x) = true /\ (forall i, i < ctz32 x -> N.testbit x i = false).
Proof.
  intros x Hx Hw. destruct (lowest_exists x 32) as (p & Hp & Hb & Hlow); auto.
  assert (ctz32 x = p) as ->; auto.
  unfold ctz32. destruct (N.eqb_spec x 0); [congruence|].
  erewrite (bs_final false 5 p 32); [apply (lxor_ones_twice p 31)| |reflexivity].
  bs_inv_step 32%nat 0. bs_inv_step 32%nat 1.
  bs_inv_step 32%nat 2. bs_inv_step 32%nat 3.
  bs_inv_step 32%nat 4.
  apply bs_inv_start; auto. intros. simpl. destruct (N.le_gt_cases p i); auto. rewrite Hlow in H by auto. discriminate.
Qed.

Lemma lxor63 : forall p, p < 64 -> N.lxor p 63 = 63 - p.
Proof.
  intros. apply N.eqb_eq. revert p H. apply (sweep (fun p => N.lxor p 63 =? 63 - p) 64). reflexivity.
Qed.

Lemma log2_highest : forall x w, x <> 0 -> x < 2 ^ w ->
  N.log2 x < w /\ N.testbit x (N.log2 x) = true /\ forall i, N.testbit x i = true -> i <= N.log2 x.
Proof.
  intros. split; [|split].
  - apply N.log2_lt_pow2; lia.
  - now apply N.bit_log2.
  - intros. destruct (N.le_gt_cases i (N.log2 x)); auto. rewrite N.bits_above_log2 in H1; auto. discriminate.
Qed.

Lemma clz64_val : forall x, x <> 0 -> x < 2 ^ 64 -> clz64 x = 63 - N.log2 x.
Proof.
  intros x Hx Hw. destruct (log2_highest x 64) as (Hp & Hb & Hhi); auto. set (p := N.log2 x) in *.
  unfold clz64. destruct (N.eqb_spec x 0); [congruence|].
  erewrite (bs_final true 6 p 64); [now apply lxor63| |reflexivity].
  bs_inv_step 64%nat 0. bs_inv_step 64%nat 1.
  bs_inv_step 64%nat 2. bs_inv_step 64%nat 3.
  bs_inv_step 64%nat 4. bs_inv_step 64%nat 5.
  apply bs_inv_start; auto. 
Qed.

Lemma clz32_val : forall x, x <> 0 -> x < 2 ^ 32 -> clz32 x = 63 - N.log2 x.
Proof.
  intros x Hx Hw. destruct (log2_highest x 32) as (Hp & Hb & Hhi); auto. set (p := N.log2 x) in *.
  unfold clz32. destruct (N.eqb_spec x 0); [congruence|].
  erewrite (bs_final true 5 p 32); [apply lxor63; lia| |reflexivity].
  bs_inv_step 32%nat 0. bs_inv_step 32%nat 1.
  bs_inv_step 32%nat 2. bs_inv_step 32%nat 3.
  bs_inv_step 32%nat 4.
  apply bs_inv_start; auto. 
Qed.

Lemma clz64_spec : forall x, x <> 0 -> x < 2 ^ 64 -> clz64 x <= 63 /\
  N.testbit x (63 - clz64 x) = true /\ (forall i, 63 - clz64 x < i -> N.testbit x i = false).
Proof.
  intros. rewrite clz64_val by auto. destruct (log2_highest x 64) as (Hp & Hb & Hhi); auto.
  replace (63 - (63 - N.log2 x)) with (N.log2 x) by lia. split; [lia|split]; auto.
  intros. now apply N.bits_above_log2.
Qed.

(** *** sel *)
Lemma sel_table : forall i x, i < 9 -> x < 256 -> 1 <= i -> i <= N.of_nat (ones_below 8 x) ->
  exists p, (p < 8)%nat /\ bind (lgetN kLtSel i) (fun row => lgetN row x) = Ok (N.of_nat p + 1) /\
  N.testbit x (N.of_nat p) = true /\ N.of_nat (ones_below p x) + 1 = i.
Proof.
  intros i x Hi Hx H1 H2.
  assert (S : forallb (fun i => forallb (fun x =>
     implb ((1 <=? i) && (i <=? N.of_nat (ones_below 8 x)))
       (existsb (fun p => match bind (lgetN kLtSel i) (fun row => lgetN row x) with
                          | Ok v => (v =? N.of_nat p + 1) | _ => false end
                 && N.testbit x (N.of_nat p) && (N.of_nat (ones_below p x) + 1 =? i)) (seq 0 8)))
     (map N.of_nat (seq 0 256))) (map N.of_nat (seq 0 9)) = true) by (vm_compute; reflexivity).
  pose proof (sweep _ 9 S i Hi) as S1. cbv beta in S1.
  pose proof (sweep _ 256 S1 x Hx) as S2. cbv beta in S2. clear S S1.
  replace ((1 <=? i) && (i <=? N.of_nat (ones_below 8 x))) with true in S2 by lia.
  cbv beta iota delta [implb] in S2. apply existsb_exists in S2. destruct S2 as (p & Hp & Hc).
  apply in_seq in Hp. exists p. split; [lia|].
  destruct (bind _ _) as [v| | |]; try discriminate.
  apply andb_true_iff in Hc. destruct Hc as [Hc Hc3]. apply andb_true_iff in Hc. destruct Hc as [Hc1 Hc2].
  apply N.eqb_eq in Hc1. apply N.eqb_eq in Hc3. subst v. auto.
Qed.

Lemma ones_below_mod : forall w k x, (k <= w)%nat -> ones_below k (x mod 2 ^ N.of_nat w) = ones_below k x.
Proof.
  intros. apply ones_below_ext. intros. apply N.mod_pow2_bits_low. lia.
Qed.

Lemma popcnt16_mod : forall x, popcnt16 x = N.of_nat (ones_below 16 x).
Proof.
  intros. assert (E : popcnt16 x = popcnt16 (x mod 2 ^ 16)).
  { unfold popcnt16. rewrite N.mod_mod by discriminate. reflexivity. }
  rewrite E, popcnt16_spec by (apply N.mod_upper_bound; discriminate).
  change 16 with (N.of_nat 16). now rewrite ones_below_mod.
Qed.

Lemma popcnt8_mod : forall x, popcnt8 x = N.of_nat (ones_below 8 x).
Proof.
  intros. assert (E : popcnt8 x = popcnt8 (x mod 256)).
  { unfold popcnt8. rewrite N.mod_mod by discriminate. reflexivity. }
  rewrite E, popcnt8_spec by (apply N.mod_upper_bound; discriminate).
  change 256 with (2 ^ N.of_nat 8). now rewrite ones_below_mod.
Qed.

(** invariant of the halving steps of sel *)
Definition sel_inv (x i : N) (w : nat) (yri : N * N * N) : Prop :=
  let '(y, r, i') := yri in
  y = N.shiftr x r /\ 1 <= i' /\ i' <= N.of_nat (ones_below w y) /\
  N.of_nat (ones_below (N.to_nat r) x) + i' = i.

Lemma sel_step_inv : forall x i w y r i' bc, sel_inv x i (w + w) (y, r, i') ->
  bc = N.of_nat (ones_below w y) ->
  sel_inv x i w (if bc <? i' then (N.shiftr y (N.of_nat w), r + N.of_nat w, i' - bc) else (y, r, i')).
Proof.
  intros x i w y r i' bc (Hy & H1 & H2 & H3) ->. rewrite ones_below_add in H2.
  destruct (N.ltb_spec (N.of_nat (ones_below w y)) i').
  - split; [|split; [|split]]; try lia.
    + subst y. now rewrite N.shiftr_shiftr.
    + rewrite Nnat.N2Nat.inj_add, Nnat.Nat2N.id, ones_below_add, Nnat.N2Nat.id, <- Hy. lia.
  - split; [|split; [|split]]; auto.
Qed.

Definition popcnt32_good_word (x : N) : Prop :=
  N.land x 0x0F0F0F0F <> 0x0F0F0F0F /\ N.land x 0xF0F0F0F0 <> 0xF0F0F0F0.

Lemma popcnt32_mod_good : forall x, popcnt32_good_word x -> popcnt32 x = N.of_nat (ones_below 32 x).
Proof.
  intros x [H1 H2]. assert (E : popcnt32 x = popcnt32 (x mod 2 ^ 32)).
  { unfold popcnt32. rewrite (N.mod_mod x (2 ^ 32)) by discriminate. reflexivity. }
  assert (L : forall m, m < 2 ^ 32 -> N.land (x mod 2 ^ 32) m = N.land x m).
  { intros. apply N.bits_inj; intro j. rewrite !N.land_spec. destruct (N.lt_ge_cases j 32).
    - now rewrite N.mod_pow2_bits_low.
    - rewrite (testbit_high m 32) by auto. now rewrite !andb_false_r. }
  rewrite E, popcnt32_good.
  - change 32 with (N.of_nat 32). now rewrite ones_below_mod.
  - apply N.mod_upper_bound. discriminate.
  - rewrite L; auto. reflexivity.
  - rewrite L; auto. reflexivity.
Qed.

Lemma sel_good : forall x i, x < 2 ^ 64 -> popcnt32_good_word x -> 1 <= i -> i <= N.of_nat (ones_below 64 x) ->
  exists p, (p < 64)%nat /\ sel x i = Ok (N.of_nat p + 1) /\
  N.testbit x (N.of_nat p) = true /\ N.of_nat (ones_below p x) + 1 = i.
Proof.
  intros x i Hx Hg H1 H2. unfold sel.
  assert (I0 : sel_inv x i (32 + 32) (x, 0, i)).
  { split; [|split; [|split]]; auto. }
  rewrite (popcnt32_mod_good x Hg).
  pose proof (sel_step_inv x i 32 x 0 i _ I0 eq_refl) as I1. rewrite N.add_0_l in I1. change (N.of_nat 32) with 32 in I1.
  destruct (if N.of_nat (ones_below 32 x) <? i then _ else _) as [[y1 r1] i1].
  rewrite popcnt16_mod.
  pose proof (sel_step_inv x i 16 y1 r1 i1 _ I1 eq_refl) as I2. change (N.of_nat 16) with 16 in I2.
  destruct (if N.of_nat (ones_below 16 y1) <? i1 then _ else _) as [[y2 r2] i2].
  rewrite popcnt8_mod.
  pose proof (sel_step_inv x i 8 y2 r2 i2 _ I2 eq_refl) as I3. change (N.of_nat 8) with 8 in I3.
  destruct (if N.of_nat (ones_below 8 y2) <? i2 then _ else _) as [[y3 r3] i3].
  destruct I3 as (Hy & Hi1 & Hi2 & Hi3). rewrite land255.
  pose proof (ones_below_le 8 y3).
  destruct (sel_table i3 (y3 mod 256)) as (p & Hp & Ht & Hb & Ho); try lia.
  { change 256 with (2 ^ N.of_nat 8). rewrite ones_below_mod; lia. }
  assert (E : bind (lgetN kLtSel i3) (fun row => bind (lgetN row (y3 mod 256)) (fun v => Ok (r3 + v)))
     = bind (bind (lgetN kLtSel i3) (fun row => lgetN row (y3 mod 256))) (fun v => Ok (r3 + v))).
  { destruct (lgetN kLtSel i3); reflexivity. }
  rewrite E, Ht. simpl bind. clear E Ht.
  assert (Hb' : N.testbit x (N.of_nat p + r3) = true).
  { rewrite <- N.shiftr_spec', <- Hy. change 256 with (2 ^ 8) in Hb. rewrite N.mod_pow2_bits_low in Hb by lia. auto. }
  exists (N.to_nat r3 + p)%nat.
  assert (HL : N.of_nat p + r3 < 64).
  { destruct (N.lt_ge_cases (N.of_nat p + r3) 64); auto. rewrite (testbit_high x 64) in Hb' by auto. discriminate. }
  split; [lia|]. split; [f_equal; lia|]. split.
  - replace (N.of_nat (N.to_nat r3 + p)) with (N.of_nat p + r3) by lia. auto.
  - rewrite ones_below_add, Nnat.N2Nat.id, <- Hy.
    change 256 with (2 ^ N.of_nat 8) in Ho. rewrite ones_below_mod in Ho by lia. lia.
Qed.

(** the hardware variant *)
Lemma pdep_pow2 : forall n pos k mask, k < N.of_nat (ones_below n (N.shiftr mask pos)) ->
  exists p, (p < n)%nat /\ pdep_from n pos (2 ^ k) mask = 2 ^ (pos + N.of_nat p) /\
   N.testbit mask (pos + N.of_nat p) = true /\ N.of_nat (ones_below p (N.shiftr mask pos)) = k.
Proof.
  assert (Z : forall n pos mask, pdep_from n pos 0 mask = 0).
  { induction n; intros; simpl; auto. destruct (N.testbit mask pos); rewrite IHn; auto. }
  induction n; intros.
  - unfold ones_below in H. simpl in H. lia.
  - change (S n) with (1 + n)%nat in H. rewrite ones_below_add, N.shiftr_shiftr in H.
    change (N.of_nat 1) with 1 in H. rewrite ones_below_S in H. change (ones_below 0 _) with 0%nat in H.
    rewrite N.shiftr_spec' in H. change (N.of_nat 0 + pos) with pos in H.
    cbn [pdep_from]. destruct (N.testbit mask pos) eqn:E.
    + destruct (N.eq_dec k 0).
      * subst k. exists O. split; [lia|]. change (N.odd (2 ^ 0)) with true. cbv iota. 
        change (N.div2 (2 ^ 0)) with 0. rewrite Z. rewrite N.shiftl_1_l, N.add_0_r. rewrite N.add_0_r. auto.
      * destruct (IHn (pos + 1) (k - 1) mask) as (p & Hp & E1 & E2 & E3); [lia|].
        exists (S p). split; [lia|].
        assert (Ek : 2 ^ k = 2 * 2 ^ (k - 1)). { rewrite <- N.pow_succ_r'. f_equal. lia. }
        assert (N.odd (2 ^ k) = false) as ->. { rewrite Ek. now rewrite N.odd_mul. }
        rewrite Ek, N.div2_double, E1. replace (pos + N.of_nat (S p)) with (pos + 1 + N.of_nat p) by lia.
        rewrite N.add_0_l. split; [auto|split]; auto.
        change (S p) with (1 + p)%nat. rewrite ones_below_add, N.shiftr_shiftr. change (N.of_nat 1) with 1.
        rewrite ones_below_S, N.shiftr_spec'. change (N.of_nat 0 + pos) with pos. rewrite E. change (ones_below 0 _) with 0%nat. lia.
    + destruct (IHn (pos + 1) k mask) as (p & Hp & E1 & E2 & E3); [lia|].
      exists (S p). split; [lia|]. rewrite E1. replace (pos + N.of_nat (S p)) with (pos + 1 + N.of_nat p) by lia.
      split; [auto|split]; auto.
      change (S p) with (1 + p)%nat. rewrite ones_below_add, N.shiftr_shiftr. change (N.of_nat 1) with 1.
      rewrite ones_below_S, N.shiftr_spec'. change (N.of_nat 0 + pos) with pos. rewrite E. change (ones_below 0 _) with 0%nat. lia.
Qed.

(** *** masks *)
Lemma pow2_pos : forall k, 0 < 2 ^ k.
Proof. intros. pose proof (N.pow_nonzero 2 k). lia. Qed.

Lemma WidthMask_ones : forall w, w < 64 -> WidthMask w = Ok (N.ones w).
Proof.
  intros. unfold WidthMask, shl64. destruct (N.ltb_spec w 64); [|lia]. simpl. f_equal.
  unfold wshl. rewrite N.shiftl_1_l.
  assert (2 ^ w < 2 ^ 64) by (apply N.pow_lt_mono_r; lia).
  rewrite wrap64_small by auto. unfold wsub. pose proof (pow2_pos w).
  replace (2 ^ w + 2 ^ 64 - 1) with ((2 ^ w - 1) + 1 * 2 ^ 64) by lia.
  rewrite N.mod_add by discriminate. rewrite N.mod_small by lia.
  rewrite N.ones_equiv. lia.
Qed.

Lemma WidthMask_bits : forall w, w < 64 -> exists m, WidthMask w = Ok m /\
  forall i, N.testbit m i = (i <? w).
Proof.
  intros. exists (N.ones w). split; [now apply WidthMask_ones|]. intro i.
  destruct (N.ltb_spec i w); [now apply N.ones_spec_low|now apply N.ones_spec_high].
Qed.

Lemma bextr_val : forall x s len, s < 64 -> len < 64 -> bextr x s len = Ok ((x / 2 ^ s) mod 2 ^ len).
Proof.
  intros. unfold bextr. rewrite WidthMask_ones by auto. unfold shr64.
  destruct (N.ltb_spec s 64); [|lia]. simpl. now rewrite N.land_ones, N.shiftr_div_pow2.
Qed.

Lemma set256_val : forall b, words256 (set256_epi1 b) /\ forall i, i < 256 -> N.testbit (value256 (set256_epi1 b)) i = b.
Proof.
  intros b. split. { split; [destruct b; reflexivity|]. destruct b; repeat (constructor; [reflexivity|]); constructor. }
  intros i Hi. destruct b.
  - change (value256 (set256_epi1 true)) with (N.ones 256). now apply N.ones_spec_low.
  - change (value256 (set256_epi1 false)) with 0. apply N.bits_0.
Qed.
