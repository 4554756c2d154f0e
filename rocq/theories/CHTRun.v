(** Proofs about CHTModel: growth, reserve and whole histories *)
From Coq Require Import List NArith ZArith Arith Bool Lia.
From Verif Require Import Base Spec Spec4 BitUtilModel BitUtilProof XorMapProof FitVectorModel FitVectorProof HashModel HashProof CHTModel CHTRing CHTShift CHTWord CHTProof CHTInsert CHTMain CHTResize.
Import ListNotations.
Local Open Scope nat_scope.

Lemma fv_sized_zero : forall w n, 1 <= w <= 63 -> fv_rep (fv_sized w n) (repeat 0%N n) true.
Proof.
  intros w n Hw. unfold fv_sized. destruct (fv_resize_any (fv_make w) [] true n (fv_make_rep w Hw)) as (r & Lr & R & E). rewrite E in R by auto. simpl length in R. rewrite Nat.sub_0_r in R.
  rewrite firstn_nil in R. exact R.
Qed.
Lemma wd_zero : forall n z, wd (repeat 0%N n) z = 0%N.
Proof. intros. unfold wd. rewrite repeat_length. generalize (idx n z). induction n; intros [|k]; simpl; auto. Qed.
Lemma cnt_false : forall a e, cnt (fun _ => false) a e = 0.
Proof. intros. apply cnt_none. auto. Qed.
Lemma ctz_pow2 : forall b, b <= 60 -> ctz64 (N.of_nat (2 ^ b)) = N.of_nat b.
Proof.
  intros b Hb. rewrite Nnat.Nat2N.inj_pow. change (N.of_nat 2) with 2%N.
  assert (P : (2 ^ N.of_nat b < 2 ^ 64)%N) by (apply N.pow_lt_mono_r; lia).
  destruct (proj2 (ctz64_full (2 ^ N.of_nat b) P)) as (T & Lo); [apply N.pow_nonzero; lia|].
  destruct (N.eq_dec (ctz64 (2 ^ N.of_nat b)) (N.of_nat b)) as [|D]; auto. exfalso. rewrite N.pow2_bits_false in T by auto. discriminate.
Qed.
(** 64 - clz(x) is the number of significant bits *)
Lemma sig_bits : forall x, (0 < x < 2 ^ 64)%N -> exists b, wsub 64 (clz64 x) = N.of_nat b /\ 1 <= b <= 64 /\ (2 ^ N.of_nat (b - 1) <= x < 2 ^ N.of_nat b)%N.
Proof.
  intros x Hx. destruct (proj2 (clz64_full x ltac:(lia)) ltac:(lia)) as (C & T & Hi). exists (N.to_nat (64 - clz64 x)). split.
  - rewrite N2Nat.id. unfold wsub. change (2 ^ 64)%N with 18446744073709551616%N. replace (64 + 18446744073709551616 - clz64 x)%N with (64 - clz64 x + 1 * 18446744073709551616)%N by lia.
    rewrite N.mod_add by lia. apply N.mod_small. lia.
  - split; [lia|]. rewrite N2Nat.id. replace (N.of_nat (N.to_nat (64 - clz64 x) - 1)) with (63 - clz64 x)%N by lia. split.
    + destruct (N.le_gt_cases (2 ^ (63 - clz64 x)) x) as [|Lt]; auto. rewrite (proj1 (bits_small x _) Lt (63 - clz64 x)%N) in T by lia. discriminate.
    + apply bits_small. intros k Hk. apply Hi. lia.
Qed.

Section Run.
Variables (kb VB VW L : nat).
Hypothesis Hkb : kb <= 63.
Hypothesis HL : 1 <= L <= 100.
Hypothesis HVW : 1 <= VW <= 63.
Hypothesis HVB : VB = 0 \/ VB = VW.
Notation rep := (rep kb VW L).

Lemma start_base : forall bb, bb <= 60 -> kb <= 59 + bb ->
  exists t, cht_start VB L kb (2 ^ bb) VW = Ok t /\ ch_size t = 0 /\ ch_used t = 0 /\ ch_bucket t = 2 ^ bb /\ ch_max t = 2 ^ bb * L / 100 /\
    exists l vs H, base kb VW L t l vs H /\ (forall z, fD l z = false) /\ forall k v, ~ holds kb l vs H k v.
Proof using HVW HVB Hkb.
  clear HL. intros bb Hbb Hwid. assert (B2 : 1 <= 2 ^ bb) by (apply (Nat.pow_le_mono_r 2 0 bb); lia).
  assert (Ct : N.to_nat (ctz64 (N.of_nat (2 ^ bb))) = bb) by (rewrite ctz_pow2 by lia; lia).
  set (t := CHT kb (2 ^ bb) bb (2 ^ bb * L / 100) (2 ^ bb * (L - 1) / 400 + 1) (fv_sized (kb - bb + 4) (2 ^ bb)) (fv_sized VW (2 ^ bb)) (kb - bb) 0 0).
  assert (E : cht_start VB L kb (2 ^ bb) VW = Ok t).
  { unfold cht_start, cht_set_value_width, cht_make. rewrite Ct. cbn [ch_size Nat.eqb negb orb ch_key_bits ch_bucket ch_bucket_bits ch_max ch_min ch_arr ch_values ch_quo_bits ch_used].
    destruct HVB as [->| ->]; [reflexivity|]. destruct (Nat.eqb_spec VW 0); [lia|]. reflexivity. }
  exists t. split; auto. do 4 (split; [reflexivity|]).
  exists (repeat 0%N (2 ^ bb)), (repeat 0%N (2 ^ bb)), (fun z => z).
  assert (F0 : forall z, fU (repeat 0%N (2 ^ bb)) z = false) by (intros z; unfold fU, fO, fC, fS; rewrite wd_zero; reflexivity).
  assert (A0 : arrs VW t (repeat 0%N (2 ^ bb)) (repeat 0%N (2 ^ bb))).
  { unfold t. constructor; cbn [ch_bucket ch_quo_bits ch_arr ch_values]; auto; try lia; try apply repeat_length; try (apply fv_sized_zero; lia). }
  split; [|split; [intros z; unfold fD; now rewrite wd_zero|]].
  - constructor; cbn [t ch_key_bits ch_bucket ch_bucket_bits ch_max ch_quo_bits ch_used ch_size]; auto; try lia.
    + constructor; auto; try lia; intros; try (rewrite F0 in *; discriminate).
      * unfold fO. now rewrite !wd_zero.
      * unfold fC. now rewrite !wd_zero.
      * unfold fS. now rewrite !wd_zero.
      * unfold fS. rewrite F0, wd_zero. split; [discriminate|]. intros (D & _). discriminate.
      * unfold fC. rewrite F0, wd_zero. split; [discriminate|]. intros (D & _). discriminate.
      * unfold fO. rewrite wd_zero. split; [discriminate|]. intros (z & D & _). rewrite F0 in D. discriminate.
      * exists 0%Z. unfold fS. now rewrite wd_zero.
    + intros z D. unfold fD in D. rewrite wd_zero in D. discriminate.
    + intros z D. rewrite F0 in D. discriminate.
    + symmetry. apply cnt_none. auto.
  - intros k v (z & D & _). rewrite F0 in D. discriminate.
Qed.
Lemma start_rep : forall bb, bb <= 60 -> kb <= 59 + bb -> 1 <= 2 ^ bb * L / 100 ->
  exists t, cht_start VB L kb (2 ^ bb) VW = Ok t /\ rep t (fun _ _ => False) /\ ch_size t = 0 /\ ch_bucket t = 2 ^ bb.
Proof.
  intros bb Hbb Hwid Hmax. destruct (start_base bb Hbb Hwid) as (t & E & S0 & U0 & B0 & M0 & l & vs & H & G & D & N). exists t. split; auto. split; [|auto].
  exists l, vs, H. split.
  - constructor; auto; [congruence|now rewrite M0|lia].
  - intros k v _. split; [tauto|apply N].
Qed.

Lemma rep_facts : forall t P, rep t P -> exists bb, bb <= 60 /\ ch_bucket t = 2 ^ bb /\ ch_max t = 2 ^ bb * L / 100 /\ 1 <= ch_max t /\ ch_size t = ch_used t /\ ch_used t <= ch_max t /\
  fv_width (ch_values t) = VW /\ ch_key_bits t = kb /\ kb <= 59 + bb.
Proof.
  intros t P (l & vs & H & G & _). exists (ch_bucket_bits t). destruct G as [Gb Gn Gs Gm Gl]. destruct Gb. pose proof (a_q _ _ _ _ g_a). rewrite <- g_bb. repeat split; auto; try apply g_bb60; [apply g_a|lia].
Qed.
Lemma rep_fun : forall t P k v v', rep t P -> (k < 2 ^ N.of_nat kb)%N -> P k v -> P k v' -> v = v'.
Proof. intros t P k v v' (l & vs & H & G & E) Hk P1 P2. apply E in P1; auto. apply E in P2; auto. eapply holds_fun; [apply (g_base _ _ _ _ _ _ _ G)|eauto|eauto]. Qed.

(** the bucket count of reserve *)
Lemma reserve_bucket : forall n, 1 <= n -> (N.of_nat n < 2 ^ 52)%N ->
  exists bb, (do b <- shl64 1 (wsub 64 (clz64 (wsub (wrap64 (wrap64 (N.of_nat n * 99) / N.of_nat L + 1)) 1))); Ok (N.to_nat b)) = Ok (2 ^ bb) /\ bb <= 60 /\
    n * 99 / L < 2 ^ bb /\ (1 <= n * 99 / L -> 1 <= bb /\ 2 ^ (bb - 1) <= n * 99 / L).
Proof.
  intros n Hn Hn52. change (2 ^ 52)%N with 4503599627370496%N in Hn52.
  assert (Q2 : n * 99 / L <= n * 99) by (apply Nat.div_le_upper_bound; nia).
  assert (W1 : wrap64 (N.of_nat n * 99) = N.of_nat (n * 99)) by (unfold wrap64; rewrite N.mod_small; [lia|]; change (2 ^ 64)%N with 18446744073709551616%N; lia).
  assert (W2 : (N.of_nat (n * 99) / N.of_nat L = N.of_nat (n * 99 / L))%N) by (now rewrite Nnat.Nat2N.inj_div).
  rewrite W1, W2. set (x := n * 99 / L) in *.
  assert (W3 : wsub (wrap64 (N.of_nat x + 1)) 1 = N.of_nat x).
  { unfold wrap64, wsub. change (2 ^ 64)%N with 18446744073709551616%N. rewrite (N.mod_small (N.of_nat x + 1)) by lia.
    replace (N.of_nat x + 1 + 18446744073709551616 - 1)%N with (N.of_nat x + 1 * 18446744073709551616)%N by lia. rewrite N.mod_add by lia. apply N.mod_small. lia. }
  rewrite W3. destruct (Nat.eq_dec x 0) as [X0|X0]; [exists 0; rewrite X0; repeat split; simpl; lia|]. destruct (sig_bits (N.of_nat x)) as (b & E & Hb & Lo & Hi); [change (2 ^ 64)%N with 18446744073709551616%N; lia|]. rewrite E.
  assert (b <= 60).
  { destruct (Nat.le_gt_cases b 60) as [|Gt]; auto. exfalso. assert (P : (2 ^ 60 <= 2 ^ N.of_nat (b - 1))%N) by (apply N.pow_le_mono_r; lia). change (2 ^ 60)%N with 1152921504606846976%N in P. lia. }
  exists b. split; [|split; [lia|]].
  - unfold shl64, wshl, wrap64. rewrite (proj2 (N.ltb_lt _ _)) by lia. cbn [bind]. f_equal. rewrite N.shiftl_1_l, N.mod_small by (apply N.pow_lt_mono_r; lia).
    change 2%N with (N.of_nat 2). rewrite <- Nnat.Nat2N.inj_pow. lia.
  - change 2%N with (N.of_nat 2) in Lo, Hi. rewrite <- Nnat.Nat2N.inj_pow in Lo, Hi. lia.
Qed.
(** the new table is never too small to take an entry *)
Lemma reserve_max : forall n bb, 1 <= n -> n * 99 / L < 2 ^ bb -> 1 <= 2 ^ bb * L / 100.
Proof.
  intros n bb Hn Hlt. apply Nat.div_le_lower_bound; [lia|]. assert (n * 99 < L * 2 ^ bb). { pose proof (Nat.div_mod (n * 99) L ltac:(lia)). pose proof (Nat.mod_upper_bound (n * 99) L ltac:(lia)). nia. } lia.
Qed.
(** growing doubles the bucket count *)
Lemma double_bucket : forall b bb, 1 <= 2 ^ b * L / 100 -> 2 * (2 ^ b * L / 100) * 99 / L < 2 ^ bb -> b < bb /\ 2 ^ b * L / 100 < 2 ^ bb * L / 100.
Proof.
  intros b bb Hm Hlt. destruct (Nat.eq_dec b 0) as [->|Hb].
  { assert (EL : L = 100). { destruct (Nat.eq_dec L 100); auto. exfalso. rewrite Nat.div_small in Hm by (simpl; lia). lia. }
    rewrite EL in *. change (2 ^ 0 * 100 / 100) with 1 in *. change (2 * 1 * 99 / 100) with 1 in Hlt. rewrite Nat.div_mul by lia.
    destruct bb; [simpl in Hlt; lia|]. split; lia. }
  set (m := 2 ^ b * L / 100) in *.
  assert (Ev : exists c, 2 ^ b = 2 * c) by (exists (2 ^ (b - 1)); replace b with (S (b - 1)) at 1 by lia; apply Nat.pow_succ_r'). destruct Ev as (c & Ec).
  assert (M : 100 * m <= 2 ^ b * L < 100 * m + 100). { unfold m. pose proof (Nat.div_mod (2 ^ b * L) 100 ltac:(lia)). pose proof (Nat.mod_upper_bound (2 ^ b * L) 100 ltac:(lia)). lia. }
  assert (Ge : 2 ^ b < 2 ^ bb).
  { apply Nat.le_lt_trans with (2 * m * 99 / L); auto. apply Nat.div_le_lower_bound; [lia|]. rewrite Ec in M |- *. destruct (Nat.eq_dec m 1) as [E|]; [|nia].
    rewrite E in *. assert (2 * c * L < 200) by lia. assert (c * L <= 99) by (rewrite <- Nat.mul_assoc in H; lia). lia. }
  assert (b < bb) by (apply Nat.pow_lt_mono_r_iff with 2; lia).
  assert (Ge2 : 2 * 2 ^ b <= 2 ^ bb) by (rewrite <- Nat.pow_succ_r'; apply Nat.pow_le_mono_r; lia).
  split; auto. apply Nat.lt_le_trans with (2 * m); [lia|]. apply Nat.div_le_lower_bound; [lia|]. nia.
Qed.

(** the first cluster *)
Lemma first_cluster : forall t l vs H, base kb VW L t l vs H -> ch_used t <> 0 ->
  exists c, (0 <= c < Z.of_nat (ch_bucket t))%Z /\ fO l c = true /\ fS l c = false /\ forall x, (0 <= x < c)%Z -> fO l x && negb (fS l x) = false.
Proof.
  intros t l vs H G U0. pose proof (g_ring _ _ _ _ _ _ _ G) as R. pose proof (a_B _ _ _ _ (g_a _ _ _ _ _ _ _ G)) as HB. set (B := ch_bucket t) in *.
   assert (Exu : exists u, fU l u = true).
      { destruct (cnt_lt_free (fun x => negb (fU l x)) (Z.of_nat B) 0) as (u & Hu & Fu).
        - destruct (Nat.lt_ge_cases (cnt (fun x => negb (fU l x)) 0 (Z.of_nat B)) (Z.to_nat (Z.of_nat B - 0))) as [|Ge]; auto. exfalso.
          apply U0. rewrite (g_used _ _ _ _ _ _ _ G). fold B. revert Ge. generalize (Z.of_nat B) 0%Z. clear. intros e z. unfold cnt. remember (Z.to_nat (e - z)) as m. clear Heqm. revert z. induction m; intros z Ge; simpl in *; auto.
          assert (Cm : forall p n a, count p a n <= n) by (intros p; induction n; intros a; simpl; [lia|]; specialize (IHn (a + 1)%Z); destruct (p a); lia).
          pose proof (Cm (fun x => negb (fU l x)) m (z + 1)%Z). destruct (fU l z); simpl in *; [lia|]. apply IHm. lia.
        - exists u. now apply negb_false_iff. }
      destruct Exu as (u & Uu).
      assert (Exc : exists c, fO l c = true /\ fS l c = false).
      { destruct (fS l u) eqn:Su.
        - destruct (back_exists _ _ _ _ _ _ R u Su) as (c & _ & Sc & _ & Uc & Hc). exists c. split; auto. rewrite <- Hc. now apply (home_occ _ _ _ _ _ _ R).
        - exists u. split; auto. rewrite <- (unshifted_home _ _ _ _ _ _ R u Uu Su). now apply (home_occ _ _ _ _ _ _ R). }
      destruct Exc as (c & Oc & Sc). pose proof (Z.mod_pos_bound c (Z.of_nat B) ltac:(lia)) as Mb.
      assert (Ec : c = (c mod Z.of_nat B + c / Z.of_nat B * Z.of_nat B)%Z) by (pose proof (Z.div_mod c (Z.of_nat B) ltac:(lia)); lia).
      rewrite Ec in Oc, Sc. rewrite (r_perO _ _ _ _ _ _ R) in Oc. rewrite (r_perS _ _ _ _ _ _ R) in Sc.
      destruct (first_between (fun x => fO l x && negb (fS l x)) 0 (c mod Z.of_nat B)) as (y & Hy & Py & Ny); [lia|now rewrite Oc, Sc|].
      apply andb_prop in Py. destruct Py as (P1 & P2). apply negb_true_iff in P2. exists y. split; [lia|]. auto.
Qed.
Lemma resize_base : forall set (Good : cht -> Prop) t l vs H bb, base kb VW L t l vs H -> bb <= 60 -> kb <= 59 + bb -> 1 <= 2 ^ bb * L / 100 ->
  (forall nt, ch_bucket nt = 2 ^ bb -> ch_size nt = 0 -> ch_max nt = 2 ^ bb * L / 100 -> Good nt) ->
  (forall nt P k v, rep nt P -> Good nt -> (k < 2 ^ N.of_nat kb)%N -> (v < 2 ^ N.of_nat VW)%N -> (forall v0, ~ P k v0) -> ch_size nt < cnt (fL l) 0 (Z.of_nat (ch_bucket t)) ->
    exists nt', set nt k v = Ok nt' /\ rep nt' (upP P k v) /\ ch_size nt' = S (ch_size nt) /\ Good nt') ->
  exists t', cht_resize VB L set t (2 ^ bb) = Ok t' /\ rep t' (fun k v => exists z, fL l z = true /\ hk l H z = hashf kb k /\ wd vs z = v) /\ Good t' /\ ch_size t' = cnt (fL l) 0 (Z.of_nat (ch_bucket t)).
Proof.
  intros set Good t l vs H bb G Hbb Hwid Hmax HG SetOK. destruct (start_rep bb Hbb Hwid Hmax) as (nt & En & Rn & Sn & Bn). pose proof (a_vw _ _ _ _ (g_a _ _ _ _ _ _ _ G)) as Wv. pose proof (g_kb _ _ _ _ _ _ _ G) as Kb.
  assert (LU : forall y, fL l y = true -> fU l y = true) by (intros y Ly; unfold fL in Ly; apply andb_prop in Ly; tauto).
  unfold cht_resize. unfold cht_start in En. rewrite Kb. rewrite Wv. destruct (rep_facts _ _ Rn) as (b1 & _ & Bn1 & Mn & _).
  assert (Gn : Good nt) by (apply HG; auto; rewrite Mn; congruence). rewrite En. cbn [bind].
  pose proof (g_ring _ _ _ _ _ _ _ G) as R. pose proof (a_B _ _ _ _ (g_a _ _ _ _ _ _ _ G)) as HB. set (B := ch_bucket t) in *.
  destruct (Nat.eq_dec (ch_used t) 0) as [U0|U0].
  - exists nt. cbn [move_all]. rewrite U0. split; auto. rewrite (g_used _ _ _ _ _ _ _ G) in U0. fold B in U0.
    assert (No : forall z, fU l z = false). intros z. destruct (fU l z) eqn:Uz; auto. exfalso.
    assert (Uz' : fU l (z mod Z.of_nat B) = true). { rewrite <- Uz. rewrite (Z.div_mod z (Z.of_nat B)) at 2 by lia. rewrite Z.add_comm, Z.mul_comm. symmetry. apply (perU _ _ _ _ _ _ R). }
    pose proof (Z.mod_pos_bound z (Z.of_nat B) ltac:(lia)) as Mb. rewrite (cnt_app (fU l) (z mod Z.of_nat B) (Z.of_nat B) 0) in U0 by lia. rewrite (cnt_cons (fU l) (z mod Z.of_nat B)) in U0 by lia. rewrite Uz' in U0. lia.
    split; [|split; auto; rewrite Sn; symmetry; apply cnt_none; intros z _; unfold fL; now rewrite No].
    apply rep_ext with (1 := Rn). intros k v Hk. split; [|tauto]. intros (z & Lz & _). apply LU in Lz. rewrite No in Lz. discriminate.
  - (* the first cluster *)
    pose proof (first_cluster t l vs H G U0) as Ex. fold B in Ex.
    destruct Ex as (c & Hc & Oc & Sc & Nc).
    assert (Eq : move_all set (S (ch_bucket t)) t nt 0 0 = move_all set (S (ch_bucket t)) t nt (idx B c) 0).
    { cbn [move_all]. destruct (0 <? ch_used t); auto. fold B.
      replace 0 with (idx B 0%Z) at 1 by (unfold idx; rewrite Z.mod_0_l by lia; reflexivity).
      assert (K1 : skip_to_cluster (S B) t (idx B 0%Z) = Ok (idx B c)) by (apply (skip_ok kb VW L Hkb HL t l vs H G set Good SetOK 0%Z c Oc Sc (Z.to_nat (c - 0))); auto; lia).
      assert (K2 : skip_to_cluster (S B) t (idx B c) = Ok (idx B c)) by (apply (skip_ok kb VW L Hkb HL t l vs H G set Good SetOK 0%Z c Oc Sc 0); auto; try lia; intros; lia).
      now rewrite K1, K2. }
    fold B in Eq. rewrite Eq. destruct (move_all_ok kb VW L Hkb HL t l vs H G set Good SetOK c Sc (Z.to_nat (c + Z.of_nat B - c)) (S (ch_bucket t)) c nt) as (nt' & E' & R' & G' & S'); auto; try (fold B; lia).
    + apply rep_ext with (1 := Rn). intros k v _. unfold part. split; [|tauto]. intros (y & Y & _). lia.
    + rewrite cnt_nil by lia. auto.
    + rewrite cnt_nil in E' by lia. fold B in E'. exists nt'. split; auto. split; [|split; auto].
      apply rep_ext with (1 := R'). intros k v Hk. unfold part. split.
      * intros (z & Uz & Hz & Vz). exists (c + (z - c) mod Z.of_nat B)%Z. pose proof (Z.mod_pos_bound (z - c) (Z.of_nat B) ltac:(lia)) as Mb. fold B.
        assert (Ez : (c + (z - c) mod Z.of_nat B)%Z = (z + (- ((z - c) / Z.of_nat B)) * Z.of_nat B)%Z) by (pose proof (Z.div_mod (z - c) (Z.of_nat B) ltac:(lia)); lia).
        split; [lia|]. rewrite Ez. pose proof (lenB kb VW L t l vs H G) as Ll. fold B in Ll. pose proof (wd_per l z (- ((z - c) / Z.of_nat B))) as Wz. rewrite Ll in Wz.
        split; [unfold fL, fD; rewrite (perU _ _ _ _ _ _ R), Wz by auto; exact Uz|]. split.
        -- unfold hk, fQ. rewrite Ll. rewrite (r_perH _ _ _ _ _ _ R), Z.mod_add by lia. pose proof (wd_per l z (- ((z - c) / Z.of_nat B))) as Wp. rewrite Ll in Wp. rewrite Wp by auto. unfold hk, fQ in Hz. rewrite Ll in Hz. exact Hz.
        -- pose proof (wd_per vs z (- ((z - c) / Z.of_nat B))) as Wp. rewrite (a_lv _ _ _ _ (g_a _ _ _ _ _ _ _ G)) in Wp. fold B in Wp. rewrite Wp by auto. auto.
      * intros (z & _ & Z). exists z. auto.
Qed.

Lemma resize_ok : forall set (Good : cht -> Prop) t P bb, rep t P -> bb <= 60 -> kb <= 59 + bb -> 1 <= 2 ^ bb * L / 100 ->
  (forall nt, ch_bucket nt = 2 ^ bb -> ch_size nt = 0 -> ch_max nt = 2 ^ bb * L / 100 -> Good nt) ->
  (forall nt P k v, rep nt P -> Good nt -> (k < 2 ^ N.of_nat kb)%N -> (v < 2 ^ N.of_nat VW)%N -> (forall v0, ~ P k v0) -> ch_size nt < ch_size t ->
    exists nt', set nt k v = Ok nt' /\ rep nt' (upP P k v) /\ ch_size nt' = S (ch_size nt) /\ Good nt') ->
  exists t', cht_resize VB L set t (2 ^ bb) = Ok t' /\ rep t' P /\ Good t' /\ ch_size t' = ch_size t.
Proof.
  intros set Good t P bb (l & vs & H & G & E) Hbb Hwid Hmax HG SetOK.
  assert (LU : forall z, fL l z = fU l z) by (intros z; unfold fL; now rewrite (g_nodel _ _ _ _ _ _ _ G), andb_true_r).
  assert (Cl : cnt (fL l) 0 (Z.of_nat (ch_bucket t)) = ch_size t) by (rewrite (g_size _ _ _ _ _ _ _ G), (g_used _ _ _ _ _ _ _ G); apply cnt_ext; auto).
  destruct (resize_base set Good t l vs H bb G Hbb Hwid Hmax HG) as (t' & E' & R' & G' & S').
  - rewrite Cl. exact SetOK.
  - exists t'. split; auto. split; [|split; auto; congruence]. apply rep_ext with (1 := R'). intros k v Hk. rewrite E by auto. unfold holds. split; intros (z & Z); exists z; rewrite LU in *; auto.
Qed.

(** set on a table with room *)
Lemma set_room : forall fuel t P k v, rep t P -> (k < 2 ^ N.of_nat kb)%N -> (v < 2 ^ N.of_nat VW)%N -> ch_used t < ch_max t ->
  exists t', cht_set_fuel VB L (S fuel) t k v = Ok t' /\ rep t' (upP P k v) /\ ch_max t' = ch_max t /\
    (((exists v0, P k v0) /\ ch_size t' = ch_size t) \/ ((forall v0, ~ P k v0) /\ ch_size t' = S (ch_size t))).
Proof.
  intros fuel t P k v (l & vs & H & G & E) Hk Hv Hu. cbn [cht_set_fuel]. unfold cht_is_filled. rewrite (proj2 (Nat.eqb_neq _ _)) by lia. cbn [bind].
  destruct (insert_ok kb VW L Hkb HL t l vs H G k v Hk Hv Hu) as (t' & l' & vs' & H' & E' & G' & B' & P' & S'). exists t'. split; auto. split; [|split].
  - exists l', vs', H'. split; auto. intros k' v' Hk'. rewrite P' by auto. unfold upP. destruct (k' =? k)%N; [tauto|]. now apply E.
  - now rewrite (g_max _ _ _ _ _ _ _ G), (g_max _ _ _ _ _ _ _ G'), B'.
  - destruct S' as [((v0 & S1) & S2)|(S1 & S2)]; [left|right]; split; auto; [exists v0; now apply E|intros v0 Pv; apply (S1 v0); now apply E].
Qed.
Lemma size_twice_small : forall s, (N.of_nat s < 2 ^ 63)%N -> size_twice s = s * 2.
Proof. clear. intros s Hs. unfold size_twice, wrap64. change (2 ^ 64)%N with 18446744073709551616%N. change (2 ^ 63)%N with 9223372036854775808%N in Hs. rewrite N.mod_small by lia. lia. Qed.
(** set on any table *)
Lemma set_any : forall fuel t P k v, rep t P -> (k < 2 ^ N.of_nat kb)%N -> (v < 2 ^ N.of_nat VW)%N -> (N.of_nat (ch_size t) < 2 ^ 51)%N ->
  exists t', cht_set_fuel VB L (S (S fuel)) t k v = Ok t' /\ rep t' (upP P k v) /\
    (((exists v0, P k v0) /\ ch_size t' = ch_size t) \/ ((forall v0, ~ P k v0) /\ ch_size t' = S (ch_size t))).
Proof.
  intros fuel t P k v Rt Hk Hv Hs. destruct (rep_facts _ _ Rt) as (b & Hb & Bt & Mt & M1 & Su & Le & _ & _ & Wb). destruct (Nat.eq_dec (ch_used t) (ch_max t)) as [Fi|].
  2:{ destruct (set_room (S fuel) t P k v Rt Hk Hv ltac:(lia)) as (t' & E' & R' & _ & S'). eauto. }
  set (f1 := S fuel). cbn [cht_set_fuel]. unfold cht_is_filled. rewrite (proj2 (Nat.eqb_eq _ _)) by auto. unfold cht_reserve_with. change (2 ^ 51)%N with 2251799813685248%N in Hs.
  rewrite size_twice_small by (change (2 ^ 63)%N with 9223372036854775808%N; lia). rewrite (proj2 (Nat.leb_gt _ _)) by lia.
  destruct (reserve_bucket (ch_size t * 2)) as (bb & Eb & Hbb & Hlt & _); [lia|change (2 ^ 52)%N with 4503599627370496%N; lia|].
  apply bind_Ok_inv in Eb. destruct Eb as (bn & Eb & En). injection En as En. cbv zeta. rewrite Eb. cbn [bind]. rewrite En.
  assert (Dm : b < bb /\ ch_max t < 2 ^ bb * L / 100).
  { rewrite Mt. apply double_bucket; [rewrite <- Mt; auto|]. rewrite Su, Fi, Mt in Hlt. now rewrite (Nat.mul_comm 2). }
  destruct (resize_ok (cht_set_fuel VB L f1) (fun nt => ch_max t < ch_max nt) t P bb Rt Hbb ltac:(lia) ltac:(lia)) as (t1 & E1 & R1 & G1 & S1).
  - intros nt _ _ ->. apply Dm.
  - intros nt P' k' v' Rn Gn Hk' Hv' Fr Lt. destruct (rep_facts _ _ Rn) as (_ & _ & _ & _ & _ & Sun & _ & _).
    destruct (set_room fuel nt P' k' v' Rn Hk' Hv' ltac:(lia)) as (nt' & E' & R' & M' & [((v0 & C) & _)|(_ & S')]); [exfalso; eapply Fr; eauto|]. exists nt'. split; auto. split; auto. split; auto. lia.
  - rewrite E1. cbn [bind]. destruct (rep_facts _ _ R1) as (_ & _ & _ & _ & _ & Su1 & _ & _).
    destruct (set_room 0 t1 P k v R1 Hk Hv ltac:(lia)) as (t' & E' & R' & _ & S'). cbn [cht_set_fuel] in E'. unfold cht_is_filled in E'. rewrite (proj2 (Nat.eqb_neq _ _)) in E' by lia. cbn [bind] in E'.
    exists t'. split; auto. split; auto. rewrite S1 in S'. auto.
Qed.
(** the buckets which reserve(n) asks for leave the quotients at most 59 bits *)
Definition room (n : nat) : Prop := kb <= 59 \/ kb <= 60 /\ L <= 99 \/ 2 ^ (kb - 60) <= n * 99 / L.
Lemma room_bb : forall n bb, room n -> 1 <= n -> n * 99 / L < 2 ^ bb -> kb <= 59 + bb.
Proof.
  clear HVW HVB Hkb. intros n bb [H|[(H & HL9)|H]] Hn Hlt; [lia| |].
  { assert (1 <= n * 99 / L) by (apply Nat.div_le_lower_bound; nia). destruct bb; [simpl in Hlt; lia|lia]. }
  assert (2 ^ (kb - 60) < 2 ^ bb) as Q by lia. apply Nat.pow_lt_mono_r_iff in Q; lia. Qed.
Lemma reserve_any : forall t P n, rep t P -> (N.of_nat (ch_size t) < 2 ^ 51)%N -> (N.of_nat n < 2 ^ 52)%N -> n <= ch_size t \/ room n ->
  exists t', cht_reserve VB L t n = Ok t' /\ rep t' P /\ ch_size t' = ch_size t.
Proof.
  intros t P n Rt Hs Hn Hr. unfold cht_reserve, cht_reserve_with. destruct (Nat.leb_spec n (ch_size t)); [exists t; auto|]. destruct Hr as [Hr|Hr]; [lia|].
  destruct (reserve_bucket n) as (bb & Eb & Hbb & Hlt & _); [lia|auto|]. apply bind_Ok_inv in Eb. destruct Eb as (bn & Eb & En). injection En as En. cbv zeta. rewrite Eb. cbn [bind]. rewrite En.
  destruct (resize_ok (cht_set VB L) (fun _ => True) t P bb Rt Hbb (room_bb n bb Hr ltac:(lia) Hlt) (reserve_max n bb ltac:(lia) Hlt)) as (t1 & E1 & R1 & _ & S1); auto.
  - intros nt P' k' v' Rn _ Hk' Hv' Fr Lt. destruct (set_any 2 nt P' k' v' Rn Hk' Hv' ltac:(lia)) as (nt' & E' & R' & [((v0 & C) & _)|(_ & S')]); [exfalso; eapply Fr; eauto|]. exists nt'. auto.
  - exists t1. auto.
Qed.

(** ** Histories *)
Lemma last_set_app : forall k ops o, last_set k (ops ++ [o]) = match o with MapSet k' v => if (k =? k')%N then Some v else last_set k ops | MapReserve _ => last_set k ops end.
Proof.
  intros k ops o. induction ops as [|a ops IH]; simpl.
  - destruct o; auto.
  - destruct a as [k1 v1|n]; rewrite IH; destruct o as [k2 v2|m]; auto. destruct (k =? k2)%N; auto.
Qed.
Lemma keys_app : forall a b, map_keys (a ++ b) = map_keys a ++ map_keys b.
Proof. intros. apply flat_map_app. Qed.
Lemma last_set_in : forall k ops, (exists v, last_set k ops = Some v) <-> In k (map_keys ops).
Proof.
  intros k ops. induction ops as [|[k1 v1|n] ops IH]; simpl.
  - split; [intros (v & E); discriminate|tauto].
  - rewrite <- IH. destruct (last_set k ops) as [w|].
    + split; intros _; eauto.
    + destruct (N.eqb_spec k k1) as [->|N]; split; eauto.
      intros [E|(v & E)]; [congruence|discriminate].
  - auto.
Qed.
Lemma nodup_snoc : forall (l : list N) x, length (nodup N.eq_dec (l ++ [x])) = length (nodup N.eq_dec l) + (if in_dec N.eq_dec x l then 0 else 1).
Proof.
  induction l as [|a l IH]; intros x.
  - reflexivity.
  - simpl app. simpl nodup. specialize (IH x). destruct (in_dec N.eq_dec a (l ++ [x])) as [I|I]; destruct (in_dec N.eq_dec a l) as [J|J]; destruct (in_dec N.eq_dec x (a :: l)) as [K|K]; destruct (in_dec N.eq_dec x l) as [M|M]; simpl length; simpl in K; try lia;
      try (exfalso; tauto); try (exfalso; apply I; apply in_or_app; auto; fail).
    all: try (apply in_app_or in I; simpl in I; destruct I as [I|[I|[]]]; subst; tauto).
    all: try (exfalso; destruct K as [<-|K]; auto; apply I, in_or_app; simpl; auto; fail).
    all: exfalso; destruct K as [K|K]; auto; apply I, in_or_app; simpl; auto.
Qed.

Definition mapP (ops : list map_op) (k v : N) : Prop := last_set k ops = Some v.
Definition rooms (o : map_op) : Prop := match o with MapSet _ _ => True | MapReserve n => n = 0 \/ room n end.
Lemma run_ok : forall bb ops, bb <= 60 -> kb <= 59 + bb -> 1 <= 2 ^ bb * L / 100 -> (N.of_nat (length ops) < 2 ^ 50)%N -> Forall (map_op_in kb VW) ops -> Forall rooms ops ->
  exists t, cht_run VB L kb (2 ^ bb) VW ops = Ok t /\ rep t (mapP ops) /\ ch_size t = distinct_keys ops /\ ch_size t <= length ops.
Proof.
  intros bb ops Hbb Hwid Hmax. unfold cht_run. destruct (start_rep bb Hbb Hwid Hmax) as (t0 & E0 & R0 & S0 & _). rewrite E0. cbn [bind]. clear E0.
  induction ops as [|o ops IH] using rev_ind; intros Hn Ho Hr.
  - exists t0. split; auto. split; [|split; auto; rewrite S0; auto]. apply rep_ext with (1 := R0). intros k v _. unfold mapP. simpl. split; [discriminate|tauto].
  - rewrite app_length in Hn. simpl in Hn. rewrite Forall_app in Ho, Hr. destruct Ho as (Ho & Ho1). destruct Hr as (Hr & Hr1). inversion Ho1; subst. apply Forall_inv in Hr1. destruct IH as (t & E & R & S & Le); [lia|auto|auto|].
    rewrite foldM_app, E. cbn [bind foldM]. change (2 ^ 50)%N with 1125899906842624%N in *.
    destruct o as [k v|n]; simpl in H1; cbn [cht_step].
    + destruct H1 as (Hk & Hv). destruct (set_any 2 t (mapP ops) k v R Hk Hv) as (t' & E' & R' & S'); [change (2 ^ 51)%N with 2251799813685248%N; lia|].
      unfold cht_set. rewrite E'. cbn [bind]. exists t'. split; auto. split; [|].
      * apply rep_ext with (1 := R'). intros k' v' _. unfold mapP. rewrite last_set_app. unfold upP. destruct (N.eqb_spec k' k) as [->|]; [|tauto]. split; [congruence|intros ->; auto].
      * unfold distinct_keys. rewrite keys_app. simpl map_keys. rewrite nodup_snoc. fold (distinct_keys ops). rewrite <- S. rewrite app_length. simpl length.
        pose proof (last_set_in k ops) as LI. destruct (in_dec N.eq_dec k (map_keys ops)) as [I|I].
        -- destruct S' as [(_ & ->)|(No & _)]; [lia|]. exfalso. apply LI in I. destruct I as (w & Ew). apply (No w Ew).
        -- destruct S' as [((w & Ew) & _)|(_ & ->)]; [|lia]. exfalso. apply I, LI. exists w. exact Ew.
    + destruct (reserve_any t (mapP ops) n R) as (t' & E' & R' & S'); [change (2 ^ 51)%N with 2251799813685248%N; lia|change (2 ^ 52)%N with 4503599627370496%N; lia|destruct Hr1 as [->|]; [left; lia|auto]|].
      rewrite E'. cbn [bind]. exists t'. split; auto. split; [|].
      * apply rep_ext with (1 := R'). intros k' v' _. unfold mapP. now rewrite last_set_app.
      * unfold distinct_keys. rewrite keys_app. simpl map_keys. rewrite app_nil_r. fold (distinct_keys ops). rewrite app_length. lia.
Qed.
Theorem map_correct_w : forall bb ops, bb <= 60 -> kb <= 59 + bb -> 1 <= 2 ^ bb * L / 100 -> (N.of_nat (length ops) < 2 ^ 50)%N -> Forall (map_op_in kb VW) ops -> Forall rooms ops ->
  exists t, cht_run VB L kb (2 ^ bb) VW ops = Ok t /\ (forall k, (k < 2 ^ N.of_nat kb)%N -> cht_get t k = Ok (last_set k ops)) /\ ch_size t = distinct_keys ops.
Proof.
  intros bb ops Hbb Hwid Hmax Hn Ho Hr. destruct (run_ok bb ops Hbb Hwid Hmax Hn Ho Hr) as (t & E & R & S & _). exists t. split; auto. split; auto.
  intros k Hk. destruct R as (l & vs & H & G & EP). destruct (get_ok kb VW L Hkb t l vs H G k Hk) as [(v & Hv & Eg)|(Hv & Eg)]; rewrite Eg.
  - apply EP in Hv; auto. unfold mapP in Hv. now rewrite Hv.
  - f_equal. destruct (last_set k ops) as [v|] eqn:El; auto. exfalso. apply (Hv v). now apply EP.
Qed.

End Run.
(** the same for keys of up to 60 bits, where every bucket count will do *)
Lemma rooms_60 : forall kb L ops, kb <= 60 -> L <= 99 -> Forall (rooms kb L) ops.
Proof. intros kb L ops H HL. apply Forall_forall. intros [k v|n] _; simpl; auto. right. right. left. auto. Qed.
Theorem map_correct : forall kb VB VW L, kb <= 60 -> 1 <= L <= 99 -> 1 <= VW <= 63 -> VB = 0 \/ VB = VW ->
  forall bb ops, 1 <= bb <= 60 -> 1 <= 2 ^ bb * L / 100 -> (N.of_nat (length ops) < 2 ^ 50)%N -> Forall (map_op_in kb VW) ops ->
  exists t, cht_run VB L kb (2 ^ bb) VW ops = Ok t /\ (forall k, (k < 2 ^ N.of_nat kb)%N -> cht_get t k = Ok (last_set k ops)) /\ ch_size t = distinct_keys ops.
Proof. intros kb VB VW L Hkb HL HVW HVB bb ops Hbb Hmax Hn Ho. apply map_correct_w; auto; try lia. apply rooms_60; lia. Qed.
