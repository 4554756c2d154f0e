(** Leading zero counts in closed form. *)
From Coq Require Import List NArith Lia Bool.
From Verif Require Import Base Spec BitUtilModel BitUtilProof BitUtilProof2.
Import ListNotations.
Local Open Scope N_scope.

Lemma log2_high : forall a b, b <> 0 -> a < 2 ^ 64 -> N.log2 (a + 2 ^ 64 * b) = 64 + N.log2 b.
Proof.
  intros a b Hb Ha. apply N.log2_unique; [lia|]. destruct (N.log2_spec b) as [L H]; [lia|].
  rewrite <- N.add_succ_r, !N.pow_add_r. set (p := 2 ^ N.log2 b) in *. set (q := 2 ^ N.succ (N.log2 b)) in *.
  change (2 ^ 64) with 18446744073709551616 in *. split; nia.
Qed.

Lemma clz64_total : forall x, x < 2 ^ 64 -> clz64 x = if x =? 0 then 64 else 63 - N.log2 x.
Proof. intros x H. destruct (N.eqb_spec x 0); [subst; reflexivity|]. now apply clz64_val. Qed.

Lemma clz256_total : forall x, words256 x ->
  clz256 x = if value256 x =? 0 then 256 else let h := N.log2 (value256 x) in 64 * (h / 64) + (63 - h mod 64).
Proof.
  intros x (L & F). destruct x as [|a [|b [|c [|d [|]]]]]; try discriminate L.
  inversion F as [|? ? Ha F1]; subst. inversion F1 as [|? ? Hb F2]; subst. inversion F2 as [|? ? Hc F3]; subst. inversion F3 as [|? ? Hd F4]; subst.
  cbn [value256]. rewrite N.mul_0_r, N.add_0_r. unfold clz256.
  assert (S : forall w, w <> 0 -> w < 2 ^ 64 -> N.log2 w < 64).
  { intros w W1 W2. apply N.log2_lt_pow2; lia. }
  assert (G : forall k w, w <> 0 -> w < 2 ^ 64 -> 64 * ((64 * k + N.log2 w) / 64) + (63 - (64 * k + N.log2 w) mod 64) = 64 * k + clz64 w).
  { intros k w W1 W2. specialize (S w W1 W2). rewrite (N.mul_comm 64 k), N.div_add_l by lia. rewrite N.add_comm with (n := k * 64), N.mod_add by lia.
    rewrite N.div_small, N.mod_small by lia. rewrite clz64_val by auto. lia. }
  assert (P : (2 ^ 64 <> 0)) by discriminate.
  assert (NZ : forall u v, v <> 0 -> u + 2 ^ 64 * v <> 0) by (intros; change (2 ^ 64) with 18446744073709551616; lia).
  assert (Z0 : forall u v, u = 0 -> v = 0 -> u + 2 ^ 64 * v = 0) by (intros; subst; reflexivity).
  destruct (N.eqb_spec d 0) as [Ed|Ed]; cbn [negb].
  - destruct (N.eqb_spec c 0) as [Ec|Ec]; cbn [negb].
    + rewrite (Z0 c d Ec Ed), N.mul_0_r, N.add_0_r. destruct (N.eqb_spec b 0) as [Eb|Eb]; cbn [negb].
      * rewrite Eb, N.mul_0_r, N.add_0_r. destruct (N.eqb_spec a 0) as [Ea|Ea]; cbn [negb]; auto. cbv zeta. rewrite <- (G 0) by auto. reflexivity.
      * pose proof (NZ a b Eb). destruct (N.eqb_spec (a + 2 ^ 64 * b) 0); [contradiction|]. cbv zeta. rewrite log2_high by auto. change 64 with (64 * 1) at 2 4. rewrite (G 1) by auto. reflexivity.
    + rewrite Ed, N.mul_0_r, N.add_0_r. pose proof (NZ b c Ec) as N1. pose proof (NZ a _ N1) as N2.
      destruct (N.eqb_spec (a + 2 ^ 64 * (b + 2 ^ 64 * c)) 0); [contradiction|]. cbv zeta. rewrite !log2_high by auto. rewrite N.add_assoc. change (64 + 64) with (64 * 2). rewrite (G 2) by auto. reflexivity.
  - pose proof (NZ c d Ed) as N1. pose proof (NZ b _ N1) as N2. pose proof (NZ a _ N2) as N3.
    destruct (N.eqb_spec (a + 2 ^ 64 * (b + 2 ^ 64 * (c + 2 ^ 64 * d))) 0); [contradiction|]. cbv zeta. rewrite !log2_high by auto. rewrite !N.add_assoc. change (64 + 64 + 64) with (64 * 3). rewrite (G 3) by auto. reflexivity.
Qed.

(** ** select with BMI2, and with POPCNT only, for every index *)
From Verif Require Import HwModel HwProof SelExact.

Lemma pdep_none : forall n pos k mask, N.of_nat (ones_below n (N.shiftr mask pos)) <= k -> pdep_from n pos (2 ^ k) mask = 0.
Proof.
  induction n as [|n IH]; intros pos k mask H; [reflexivity|].
  change (S n) with (1 + n)%nat in H. rewrite ones_below_add, N.shiftr_shiftr in H.
  change (N.of_nat 1) with 1 in H. rewrite ones_below_S in H. change (ones_below 0 _) with 0%nat in H.
  rewrite N.shiftr_spec' in H. change (N.of_nat 0 + pos) with pos in H.
  cbn [pdep_from]. destruct (N.testbit mask pos) eqn:E.
  - assert (Ek : 2 ^ k = 2 * 2 ^ (k - 1)). { rewrite <- N.pow_succ_r'. f_equal. lia. }
    assert (O : N.odd (2 ^ k) = false) by (rewrite Ek; now rewrite N.odd_mul). rewrite O, Ek, N.div2_double. apply IH. lia.
  - apply IH. lia.
Qed.

Lemma sel_bmi2_total : forall tz x i, (forall y, y < 2 ^ 64 -> y <> 0 -> lowest_one y (tz y)) -> tz 0 = 64 -> x < 2 ^ 64 -> i < 2 ^ 64 ->
  if (1 <=? i) && (i <=? N.of_nat (ones_below 64 x)) then
    exists p, (p < 64)%nat /\ sel_bmi2 tz x i = Ok (N.of_nat p + 1) /\ N.testbit x (N.of_nat p) = true /\ N.of_nat (ones_below p x) + 1 = i
  else sel_bmi2 tz x i = if (1 <=? i) && (i <=? 64) then Ok 65 else UB.
Proof.
  intros tz x i H Z Hx Hi. destruct (N.leb_spec 1 i) as [H1|H1]; cbn [andb].
  - destruct (N.leb_spec i (N.of_nat (ones_below 64 x))) as [H2|H2]; [now apply sel_bmi2_any|].
    assert (Ei : wsub i 1 = i - 1).
    { unfold wsub. replace (i + 2 ^ 64 - 1) with ((i - 1) + 1 * 2 ^ 64) by lia. rewrite N.mod_add by discriminate. apply N.mod_small. lia. }
    unfold sel_bmi2, shl64. rewrite Ei. destruct (N.leb_spec i 64), (N.ltb_spec (i - 1) 64); try lia; [|reflexivity]. cbn [bind].
    unfold wshl. rewrite N.shiftl_1_l, wrap64_small by (apply N.pow_lt_mono_r; lia). unfold pdep.
    rewrite pdep_none by (rewrite N.shiftr_0_r; lia). now rewrite Z.
  - assert (i = 0) by lia. subst i. reflexivity.
Qed.

Lemma sel_hw_total : forall x i,
  let h := N.shiftr x 32 in let c := N.of_nat (ones_below 32 x) in
  if i =? 0 then sel_hw x i = Ok 0
  else if i <=? c + N.of_nat (ones_below 32 h) then
    exists p, (p < 64)%nat /\ sel_hw x i = Ok (N.of_nat p + 1) /\ N.testbit x (N.of_nat p) = true /\ N.of_nat (ones_below p x) + 1 = i
  else sel_hw x i = if i - c - N.of_nat (ones_below 24 h) <=? 8 then Ok 64 else UB.
Proof.
  intros x i h c.
  assert (E : sel_hw x i = if c <? i then sel32 h 32 (i - c) else sel32 x 0 i).
  { unfold sel_hw. rewrite popcnt32_hw_spec. fold c. destruct (c <? i); reflexivity. }
  destruct (N.eqb_spec i 0) as [->|Hi].
  - rewrite E. destruct (N.ltb_spec c 0); [lia|]. pose proof (sel_zero x) as S. rewrite sel_halves in S. destruct (N.ltb_spec (popcnt32 x) 0); [lia|exact S].
  - rewrite E. destruct (N.leb_spec i (c + N.of_nat (ones_below 32 h))) as [H|H].
    + destruct (N.ltb_spec c i).
      * destruct (sel32_in h 32 (i - c)) as (p & A1 & A2 & A3 & A4); [lia|lia|].
        exists (32 + p)%nat. rewrite A2. split; [lia|]. split; [f_equal; lia|]. split.
        -- subst h. rewrite N.shiftr_spec' in A3. rewrite <- A3. f_equal. lia.
        -- rewrite ones_below_add. change (N.of_nat 32) with 32. fold h. lia.
      * destruct (sel32_in x 0 i) as (p & A1 & A2 & A3 & A4); [lia|lia|]. exists p. rewrite A2. split; [lia|]. auto.
    + destruct (N.ltb_spec c i); [|lia]. rewrite sel32_out by lia. reflexivity.
Qed.

Lemma bextr_hw_total : forall x s len, x < 2 ^ 64 -> bextr_hw x s len = (x / 2 ^ (s mod 256)) mod 2 ^ (len mod 256).
Proof.
  intros x s len Hx. unfold bextr_hw, hw_bextr.
  assert (M : forall a, (a mod 2 ^ 32) mod 256 = a mod 256).
  { intros a. change (2 ^ 32) with (256 * 16777216). rewrite N.mod_mul_r by discriminate. rewrite (N.mul_comm 256), N.mod_add by discriminate. now rewrite N.mod_mod. }
  rewrite !M, N.shiftr_div_pow2. set (k := len mod 256). set (y := x / 2 ^ (s mod 256)).
  assert (Hy : y < 2 ^ 64). { apply N.le_lt_trans with x; auto. unfold y. apply N.div_le_upper_bound; [apply N.pow_nonzero; lia|]. pose proof (pow2_pos (s mod 256)). nia. }
  destruct (N.le_gt_cases k 64); [now rewrite N.min_l|]. rewrite N.min_r by lia. rewrite !N.mod_small; auto.
  apply N.lt_trans with (2 ^ 64); auto. apply N.pow_lt_mono_r; lia.
Qed.
