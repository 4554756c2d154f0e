(** shifts_of_conflicts_. *)
From Coq Require Import NArith ZArith Lia.
From Verif Require Import Base BitUtilModel BitUtilProof2 Spec Spec16 XorMapProof MultiBitProof SamcShiftModel.
Local Open Scope N_scope.

Lemma bit_lt : forall x i, x < 2 ^ 64 -> N.testbit x i = true -> i < 64.
Proof. intros x i H T. destruct (N.ltb_spec i 64); auto. rewrite (testbit_high x 64 i) in T by auto. discriminate. Qed.
Lemma shiftr_lt : forall F p, F < 2 ^ 64 -> N.shiftr F p < 2 ^ 64.
Proof. intros. rewrite N.shiftr_div_pow2. apply N.le_lt_trans with F; auto. apply N.div_le_upper_bound; [apply N.pow_nonzero; lia|]. assert (1 <= 2 ^ p) by (apply N.lt_pred_le, N.neq_0_lt_0, N.pow_nonzero; lia). nia. Qed.
Lemma up_run : forall F p, F < 2 ^ 64 -> p < 64 -> ones_upward F p (ctz64 (wnot (N.shiftr F p))).
Proof.
  intros F p HF Hp. pose proof (shiftr_lt F p HF) as HS. pose proof (wnot_lt _ HS) as HW. destruct (ctz64_full _ HW) as [Z NZ]. destruct (N.eq_dec (wnot (N.shiftr F p)) 0) as [E|E].
  - rewrite (Z E). split.
    + intros j Hj. assert (T : N.testbit (wnot (N.shiftr F p)) j = false) by (rewrite E; apply N.bits_0). rewrite wnot_spec in T by lia. rewrite N.shiftr_spec' in T. rewrite N.add_comm. destruct (N.testbit F (j + p)); auto; discriminate.
    + apply (testbit_high F 64); auto. lia.
  - destruct (NZ E) as [T1 T2]. set (n := ctz64 (wnot (N.shiftr F p))) in *. rewrite wnot_bits in T1 by auto. rewrite N.shiftr_spec' in T1. destruct (N.ltb_spec n 64); [|discriminate]. cbn [andb] in T1.
    split.
    + intros j Hj. specialize (T2 j Hj). rewrite wnot_spec in T2 by lia. rewrite N.shiftr_spec' in T2. rewrite N.add_comm. destruct (N.testbit F (j + p)); auto; discriminate.
    + rewrite N.add_comm. destruct (N.testbit F (n + p)); auto; discriminate.
Qed.
Lemma wshl_bits : forall x k i, N.testbit (wshl x k) i = ((i <? 64) && (k <=? i) && N.testbit x (i - k))%bool.
Proof.
  intros x k i. unfold wshl. destruct (N.ltb_spec i 64).
  - cbn [andb]. unfold wrap64 in *. rewrite N.mod_pow2_bits_low by auto. destruct (N.leb_spec k i); cbn [andb]; [apply N.shiftl_spec_high'; auto|apply N.shiftl_spec_low; auto].
  - cbn [andb]. unfold wrap64 in *. apply N.mod_pow2_bits_high. auto.
Qed.
Lemma wshl_lt : forall x k, wshl x k < 2 ^ 64.
Proof. intros. unfold wshl, wrap64. apply N.mod_lt. discriminate. Qed.
Lemma down_run : forall M p, p < 64 -> ones_downward M p (clz64 (wnot (wshl M (63 - p)))).
Proof.
  intros M p Hp. pose proof (wshl_lt M (63 - p)) as HS. pose proof (wnot_lt _ HS) as HW. destruct (clz64_full _ HW) as [Z NZ].
  assert (BT : forall i, i < 64 -> N.testbit (wnot (wshl M (63 - p))) i = negb ((63 - p <=? i) && N.testbit M (i - (63 - p)))).
  { intros i Hi. rewrite wnot_spec by auto. rewrite wshl_bits. destruct (N.ltb_spec i 64); [|lia]. reflexivity. }
  destruct (N.eq_dec (wnot (wshl M (63 - p))) 0) as [E|E].
  - rewrite (Z E). assert (BT' : forall i, i < 64 -> 63 - p <= i /\ N.testbit M (i - (63 - p)) = true).
    { intros i Hi. specialize (BT i Hi). rewrite E, N.bits_0 in BT. destruct (N.leb_spec (63 - p) i); [|discriminate]. destruct (N.testbit M (i - (63 - p))); auto; discriminate. }
    assert (p = 63) as -> by (destruct (BT' 0); lia). split; [lia|]. split; [|left; reflexivity].
    intros j Hj. destruct (BT' (63 - j)) as [_ T]; [lia|]. replace (63 - j - (63 - 63)) with (63 - j) in T by lia. exact T.
  - destruct (NZ E) as [L [T1 T2]]. set (n := clz64 (wnot (wshl M (63 - p)))) in *.
    assert (OK : forall j, j < n -> j <= p /\ N.testbit M (p - j) = true).
    { intros j Hj. specialize (T2 (63 - j)). rewrite BT in T2 by lia. specialize (T2 ltac:(lia)). destruct (N.leb_spec (63 - p) (63 - j)); [|discriminate]. split; [lia|].
      replace (63 - j - (63 - p)) with (p - j) in T2 by lia. destruct (N.testbit M (p - j)); auto; discriminate. }
    split. { destruct (N.eq_dec n 0); [lia|]. destruct (OK (n - 1)); lia. } split. { intros j Hj. apply OK. exact Hj. }
    destruct (N.eq_dec n (p + 1)); auto. right. assert (n <= p). { destruct (N.eq_dec n 0); [lia|]. destruct (OK (n - 1)); lia. }
    rewrite BT in T1 by lia. destruct (N.leb_spec (63 - p) (63 - n)); [|lia]. replace (63 - n - (63 - p)) with (p - n) in T1 by lia. destruct (N.testbit M (p - n)); auto; discriminate.
Qed.
Theorem soc_exact : forall F M, F < 2 ^ 64 -> M < 2 ^ 64 -> N.land F M <> 0 -> exists p a b, lowest_one (N.land F M) p /\ ones_upward F p a /\ ones_downward M p b /\
  soc_body F M (N.land F M) = Ok (a + b - 1) /\ 1 <= a + b - 1 /\ forall s, s < a + b - 1 -> N.land F (N.shiftl M s) <> 0.
Proof.
  intros F M HF HM NZ.
  assert (HC : N.land F M < 2 ^ 64). { destruct (N.ltb_spec (N.land F M) (2 ^ 64)); auto. exfalso. assert (T : N.testbit (N.land F M) (N.log2 (N.land F M)) = true) by (apply N.bit_log2; auto). rewrite N.land_spec in T. apply andb_prop in T. destruct T as [T _]. apply (bit_lt _ _ HF) in T. apply N.log2_lt_pow2 in T; lia. }
  destruct (ctz64_full _ HC) as [_ Q]. specialize (Q NZ). unfold soc_body. set (p := ctz64 (N.land F M)) in *. destruct Q as [P1 P2]. assert (P1' := P1). rewrite N.land_spec in P1'. apply andb_prop in P1'. destruct P1' as [PF PM].
  pose proof (bit_lt _ _ HF PF) as Hp. unfold shr64, shl64. destruct (N.ltb_spec p 64); [|lia]. cbn [bind].
  assert (W : wsub (wsub 64 1) p = 63 - p). { unfold wsub. clear - Hp. change ((64 + 2 ^ 64 - 1) mod 2 ^ 64) with 63. replace (63 + 2 ^ 64 - p) with (63 - p + 1 * 2 ^ 64) by (change (2 ^ 64) with 18446744073709551616; lia). rewrite N.mod_add by discriminate. apply N.mod_small. change (2 ^ 64) with 18446744073709551616. lia. }
  rewrite W. destruct (N.ltb_spec (63 - p) 64); [|lia]. cbn [bind].
  pose proof (up_run F p HF Hp) as UR. pose proof (down_run M p Hp) as DR. set (a := ctz64 (wnot (N.shiftr F p))) in *. set (b := clz64 (wnot (wshl M (63 - p)))) in *.
  assert (A1 : 1 <= a). { destruct (N.eq_dec a 0) as [E|E]; [|lia]. destruct UR as [_ U]. rewrite E, N.add_0_r in U. congruence. }
  assert (B1 : 1 <= b). { destruct (N.eq_dec b 0) as [E|E]; [|lia]. destruct DR as (_ & _ & D). rewrite E, N.sub_0_r in D. destruct D as [D|D]; [lia|congruence]. }
  assert (A2 : a <= 64). { destruct (N.leb_spec a 64); auto. exfalso. destruct UR as [U _]. specialize (U 64 ltac:(lia)). apply (bit_lt _ _ HF) in U. lia. }
  assert (B2 : b <= 64) by (destruct DR; lia).
  exists p, a, b. split; [split; auto|]. split; auto. split; auto. split.
  - f_equal. rewrite Z.mod_small by (change (2 ^ 64)%Z with 18446744073709551616%Z; lia). lia.
  - split; [lia|]. intros s Hs E. destruct UR as [U _]. destruct DR as (D0 & D & _).
    assert (K : forall q, N.testbit F q = true -> s <= q -> N.testbit M (q - s) = true -> False).
    { intros q Q1 Q2 Q3. assert (T : N.testbit (N.land F (N.shiftl M s)) q = true) by (rewrite N.land_spec, N.shiftl_spec_high', Q1, Q3 by auto; reflexivity). rewrite E, N.bits_0 in T. discriminate. }
    destruct (N.ltb_spec s a).
    + apply (K (p + s)); [apply U; auto|lia|]. replace (p + s - s) with p by lia. exact PM.
    + apply (K (p + (a - 1))); [apply U; lia|lia|]. replace (p + (a - 1) - s) with (p - (s - a + 1)) by lia. apply D. lia.
Qed.
Theorem soc_zero : forall F M, soc_body F M 0 = UB.
Proof. reflexivity. Qed.
Theorem soc_assert : forall F M C, soc_debug F M C = Throw <-> C <> N.land F M.
Proof.
  intros F M C. unfold soc_debug. destruct (N.eqb_spec (N.land F M) C) as [E|E].
  - split; [|congruence]. unfold soc_body, shr64, shl64. intros H. destruct (_ <? _) in H; cbn [bind] in H; [|discriminate]. destruct (_ <? _) in H; discriminate.
  - split; auto.
Qed.
