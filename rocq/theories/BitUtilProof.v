(** Proofs about BitUtilModel.v *)
From Coq Require Import List NArith ZArith Lia Bool Arith.
From Coq Require Import ZifyBool ZifyNat ZifyN.
From Verif Require Import Base Spec BitUtilModel.
Import ListNotations.
Ltac Zify.zify_post_hook ::= Z.div_mod_to_equations.
Open Scope N_scope.

(** ** Digit decompositions *)

Lemma land_join : forall w a b ma mb, a < 2 ^ w -> ma < 2 ^ w ->
  N.land (a + 2 ^ w * b) (ma + 2 ^ w * mb) = N.land a ma + 2 ^ w * N.land b mb.
Proof.
  intros. apply N.bits_inj; intro i.
  assert (N.land a ma < 2 ^ w).
  { apply lt_pow2_bits; intros. rewrite N.land_spec, (testbit_high a w) by auto. reflexivity. }
  rewrite N.land_spec, !testbit_join by auto.
  destruct (i <? w); now rewrite N.land_spec.
Qed.

Lemma shr_land_join : forall w k a b ma mb, k <= w -> a < 2 ^ w -> ma < 2 ^ (w - k) ->
  N.land (N.shiftr (a + 2 ^ w * b) k) (ma + 2 ^ w * mb)
  = N.land (N.shiftr a k) ma + 2 ^ w * N.land (N.shiftr b k) mb.
Proof.
  intros.
  assert (ma < 2 ^ w) by (eapply N.lt_le_trans; eauto; apply N.pow_le_mono_r; lia).
  apply N.bits_inj; intro i.
  assert (N.land (N.shiftr a k) ma < 2 ^ w).
  { apply lt_pow2_bits; intros. rewrite N.land_spec, (testbit_high ma w) by auto. now rewrite andb_false_r. }
  rewrite N.land_spec, N.shiftr_spec', !testbit_join by auto.
  destruct (N.ltb_spec i w).
  - rewrite N.land_spec, N.shiftr_spec'. destruct (N.ltb_spec (i + k) w); auto.
    rewrite (testbit_high ma (w - k)) by (auto; lia). now rewrite !andb_false_r.
  - rewrite N.land_spec, N.shiftr_spec'. destruct (N.ltb_spec (i + k) w); try lia.
    do 2 f_equal. lia.
Qed.

Lemma lnot_join : forall w n a b, a < 2 ^ w ->
  N.lnot (a + 2 ^ w * b) (w + n) = N.lnot a w + 2 ^ w * N.lnot b n.
Proof.
  intros.
  assert (N.lnot a w < 2 ^ w).
  { apply lt_pow2_bits; intros. rewrite N.lnot_spec_high by auto. now apply testbit_high with w. }
  apply N.bits_inj; intro i. rewrite testbit_join by auto.
  destruct (N.lt_ge_cases i (w + n)).
  - rewrite N.lnot_spec_low, testbit_join by auto. destruct (N.ltb_spec i w).
    + now rewrite N.lnot_spec_low.
    + rewrite N.lnot_spec_low by lia. reflexivity.
  - rewrite N.lnot_spec_high, testbit_join by auto. destruct (N.ltb_spec i w); [lia|].
    rewrite N.lnot_spec_high by lia. reflexivity.
Qed.

(** Finite sweeps *)
Lemma sweep : forall (P : N -> bool) n, forallb P (map N.of_nat (seq 0 n)) = true ->
  forall x, x < N.of_nat n -> P x = true.
Proof.
  intros P n H x Hx. rewrite forallb_forall in H. apply H.
  replace x with (N.of_nat (N.to_nat x)) by lia. apply in_map. apply in_seq. lia.
Qed.

(** ** ones_below *)
Lemma ones_below_S : forall w x, ones_below (S w) x =
  ((if N.testbit x (N.of_nat w) then 1 else 0) + ones_below w x)%nat.
Proof.
  intros. unfold ones_below. rewrite seq_S, filter_app, app_length. simpl.
  destruct (N.testbit x (N.of_nat w)); simpl; lia.
Qed.

Lemma ones_below_ext : forall w x y,
  (forall i, i < N.of_nat w -> N.testbit x i = N.testbit y i) -> ones_below w x = ones_below w y.
Proof.
  induction w; intros; auto. rewrite !ones_below_S, H by lia. f_equal. apply IHw. intros; apply H; lia.
Qed.

Lemma ones_below_add : forall v w x,
  ones_below (v + w) x = (ones_below v x + ones_below w (N.shiftr x (N.of_nat v)))%nat.
Proof.
  intros. induction w.
  - rewrite Nat.add_0_r. unfold ones_below at 3. simpl. lia.
  - rewrite Nat.add_succ_r, !ones_below_S, IHw, N.shiftr_spec'.
    replace (N.of_nat w + N.of_nat v) with (N.of_nat (v + w)) by lia. lia.
Qed.

Lemma ones_below_join : forall v w a b, a < 2 ^ N.of_nat v ->
  ones_below (v + w) (a + 2 ^ N.of_nat v * b) = (ones_below v a + ones_below w b)%nat.
Proof.
  intros. rewrite ones_below_add. f_equal.
  - apply ones_below_ext. intros. rewrite testbit_join by auto.
    destruct (N.ltb_spec i (N.of_nat v)); auto; lia.
  - apply ones_below_ext. intros. rewrite N.shiftr_spec', testbit_join by auto.
    destruct (N.ltb_spec (i + N.of_nat v) (N.of_nat v)); try lia. f_equal. lia.
Qed.

Lemma ones_below_le : forall w x, (ones_below w x <= w)%nat.
Proof. induction w; intros; [unfold ones_below; simpl; lia|]. rewrite ones_below_S. specialize (IHw x). destruct N.testbit; lia. Qed.

Lemma ones_below_high : forall v w x, (v <= w)%nat -> x < 2 ^ N.of_nat v -> ones_below w x = ones_below v x.
Proof.
  intros. replace w with (v + (w - v))%nat by lia. rewrite ones_below_add.
  replace (N.shiftr x (N.of_nat v)) with 0.
  - replace (ones_below (w - v) 0) with 0%nat; [lia|]. induction (w - v)%nat; auto.
    rewrite ones_below_S, <- IHn. reflexivity.
  - rewrite N.shiftr_div_pow2, N.div_small; auto.
Qed.

Lemma split8 : forall x n, x < 2 ^ (8 * N.succ n) -> exists a b, x = a + 2 ^ 8 * b /\ a < 2 ^ 8 /\ b < 2 ^ (8 * n).
Proof.
  intros x n H. exists (x mod 256), (x / 256).
  replace (8 * N.succ n) with (8 + 8 * n) in H by lia. rewrite N.pow_add_r in H.
  change (2 ^ 8) with 256 in *. split; [|split].
  - rewrite N.add_comm. apply N.div_mod'.
  - apply N.mod_upper_bound. discriminate.
  - apply N.div_lt_upper_bound; lia.
Qed.

(** repeated byte masks *)
Fixpoint rep (n : nat) (d : N) : N := match n with O => 0 | S n => d + 2 ^ 8 * rep n d end.

(** *** popcnt8/16 *)
Lemma popcnt8_spec : forall x, x < 256 -> popcnt8 x = N.of_nat (ones_below 8 x).
Proof.
  intros. apply N.eqb_eq. revert x H.
  apply (sweep (fun x => popcnt8 x =? N.of_nat (ones_below 8 x)) 256). vm_compute. reflexivity.
Qed.

Lemma land255 : forall x, N.land x 255 = x mod 256.
Proof. intros. change 255 with (N.ones 8). now rewrite N.land_ones. Qed.

Lemma popcnt16_spec : forall x, x < 2 ^ 16 -> popcnt16 x = N.of_nat (ones_below 16 x).
Proof.
  intros. unfold popcnt16. rewrite N.mod_small by auto. rewrite !land255, N.shiftr_div_pow2.
  change (2 ^ 8) with 256. rewrite (N.mod_small (x / 256)) by (apply N.div_lt_upper_bound; [lia|auto]).
  rewrite !popcnt8_spec.
  2: apply N.mod_upper_bound; lia.
  2: apply N.div_lt_upper_bound; [lia|auto].
  rewrite (N.div_mod' x 256) at 3. rewrite N.add_comm with (n := 256 * _).
  change 16%nat with (8 + 8)%nat. change 256 with (2 ^ N.of_nat 8) at 4.
  rewrite ones_below_join by (apply N.mod_upper_bound; lia). lia.
Qed.

(** *** popcnt64 *)
Lemma rep_S : forall n d, rep (S n) d = d + 2 ^ 8 * rep n d.
Proof. reflexivity. Qed.
Lemma rep_1 : forall d, rep 1 d = d.
Proof. intros. rewrite rep_S. change (rep 0 d) with 0. lia. Qed.

Definition p64a (n : nat) (x : N) : N := x - N.land (N.shiftr x 1) (rep n 0x55).
Definition p64b (n : nat) (x : N) : N := N.land x (rep n 0x33) + N.land (N.shiftr x 2) (rep n 0x33).
Definition p64c (n : nat) (x : N) : N := N.land (x + N.shiftr x 4) (rep n 0x0F).

Lemma land_le_l : forall a b, N.land a b <= a.
Proof.
  intros. apply N.ldiff_le, N.bits_inj; intro i.
  rewrite N.ldiff_spec, N.land_spec, N.bits_0. destruct (N.testbit a i), (N.testbit b i); auto.
Qed.

Lemma land_le_r : forall a b, N.land a b <= b.
Proof. intros. rewrite N.land_comm. apply land_le_l. Qed.

Lemma shiftr_le : forall a k, N.shiftr a k <= a.
Proof.
  intros. rewrite N.shiftr_div_pow2. assert (2 ^ k <> 0) by (apply N.pow_nonzero; lia).
  destruct (N.eq_dec a 0); [subst; rewrite N.div_0_l; lia|]. 
  apply N.div_le_upper_bound; auto. nia.
Qed.

Lemma p64a_join : forall n a b, a < 2 ^ 8 ->
  p64a (S n) (a + 2 ^ 8 * b) = p64a 1 a + 2 ^ 8 * p64a n b.
Proof.
  intros. unfold p64a. rewrite rep_1, rep_S, shr_land_join by (auto; try lia; reflexivity).
  assert (N.land (N.shiftr a 1) 0x55 <= a) by (etransitivity; [apply land_le_l|apply shiftr_le]).
  assert (N.land (N.shiftr b 1) (rep n 0x55) <= b) by (etransitivity; [apply land_le_l|apply shiftr_le]).
  lia.
Qed.

Lemma p64b_join : forall n a b, a < 2 ^ 8 ->
  p64b (S n) (a + 2 ^ 8 * b) = p64b 1 a + 2 ^ 8 * p64b n b.
Proof.
  intros. unfold p64b. rewrite rep_1, rep_S, shr_land_join by (auto; try lia; reflexivity).
  rewrite land_join by (auto; reflexivity). lia.
Qed.

(** after step b every byte is <= 0x44; after adding the shifted copy the low nibble is the byte count *)
Lemma land0F : forall x, N.land x 0x0F = x mod 16.
Proof. intros. change 0x0F with (N.ones 4). now rewrite N.land_ones. Qed.

Lemma p64c_join : forall n a b, a < 2 ^ 8 -> a / 16 + a mod 16 < 16 ->
  (b mod 16) + a / 16 < 16 ->
  p64c (S n) (a + 2 ^ 8 * b) = p64c 1 a + 2 ^ 8 * p64c n b.
Proof.
  intros. unfold p64c. rewrite rep_1, rep_S.
  rewrite !N.shiftr_div_pow2. change (2 ^ 8) with 256 in *. change (2 ^ 4) with 16.
  replace (a + 256 * b + (a + 256 * b) / 16)
    with ((a + a / 16 + 16 * (b mod 16)) + 256 * (b + b / 16)) by lia.
  set (s := a + a / 16 + 16 * (b mod 16)).
  assert (s < 256) by (subst s; lia).
  change 256 with (2 ^ 8). rewrite land_join by (auto; reflexivity).
  f_equal. rewrite !land0F. subst s. lia.
Qed.

Definition p64 (n : nat) (x : N) : N := p64c n (p64b n (p64a n x)).

Lemma byte_steps : forall a, a < 256 ->
  let b := p64b 1 (p64a 1 a) in
  (b <? 256) && (b / 16 <=? 4) && (b mod 16 <=? 4) && (p64 1 a =? N.of_nat (ones_below 8 a)) && (p64a 1 a <? 256) = true.
Proof.
  apply (sweep (fun a => let b := p64b 1 (p64a 1 a) in
   (b <? 256) && (b / 16 <=? 4) && (b mod 16 <=? 4) && (p64 1 a =? N.of_nat (ones_below 8 a)) && (p64a 1 a <? 256)) 256).
  vm_compute. reflexivity.
Qed.

Lemma p64_b_low : forall n x, x < 2 ^ (8 * N.of_nat n) -> (p64b n (p64a n x)) mod 16 <= 4.
Proof.
  destruct n; intros.
  - simpl in *. unfold p64a, p64b. simpl rep. rewrite !N.land_0_r. cbn. lia.
  - replace (N.of_nat (S n)) with (N.succ (N.of_nat n)) in H by lia.
    apply split8 in H. destruct H as (a & b & -> & Ha & Hb).
    rewrite p64a_join by auto. 
    pose proof (byte_steps a Ha) as S. cbv zeta in S.
    rewrite p64b_join by (change (2^8) with 256; lia).
    change (2 ^ 8) with 256. lia.
Qed.

Lemma p64_join : forall n a b, a < 2 ^ 8 -> b < 2 ^ (8 * N.of_nat n) ->
  p64 (S n) (a + 2 ^ 8 * b) = N.of_nat (ones_below 8 a) + 2 ^ 8 * p64 n b.
Proof.
  intros. unfold p64.
  pose proof (byte_steps a H) as S. cbv zeta in S. pose proof (p64_b_low n b H0).
  rewrite p64a_join by auto.
  rewrite p64b_join by (change (2^8) with 256; lia).
  rewrite p64c_join by (change (2^8) with 256; lia).
  unfold p64 in S. lia.
Qed.

(** the value read off by the multiplication: sum of the byte digits *)
Lemma popcnt64_p64 : forall x, x < 2 ^ 64 ->
  popcnt64 x = N.shiftr (wrap64 (0x0101010101010101 * p64 8 x)) 56.
Proof.
  intros. unfold popcnt64, p64.
  assert (E1: wsub x (N.land (N.shiftr x 1) 0x5555555555555555) = p64a 8 x).
  { unfold p64a. change (rep 8 0x55) with 0x5555555555555555. unfold wsub.
    set (y := N.land _ _).
    assert (y <= x) by (etransitivity; [apply land_le_l|apply shiftr_le]).
    change (2 ^ 64) with 18446744073709551616 in *. lia. }
  rewrite E1.
  assert (p64a 8 x < 2 ^ 64) by (unfold p64a; eapply N.le_lt_trans; [apply N.le_sub_l|auto]).
  set (y := p64a 8 x) in *.
  assert (E2: wrap64 (N.land y 0x3333333333333333 + N.land (N.shiftr y 2) 0x3333333333333333) = p64b 8 y).
  { unfold p64b. change (rep 8 0x33) with 0x3333333333333333. apply wrap64_small.
    pose proof (land_le_r y 0x3333333333333333). pose proof (land_le_r (N.shiftr y 2) 0x3333333333333333).
    change (2 ^ 64) with 18446744073709551616 in *. lia. }
  rewrite E2.
  assert (p64b 8 y <= 0x6666666666666666).
  { unfold p64b. change (rep 8 0x33) with 0x3333333333333333.
    pose proof (land_le_r y 0x3333333333333333). pose proof (land_le_r (N.shiftr y 2) 0x3333333333333333). lia. }
  set (z := p64b 8 y) in *. unfold p64c. change (rep 8 0x0F) with 0x0F0F0F0F0F0F0F0F.
  rewrite (wrap64_small (z + N.shiftr z 4)); auto.
  rewrite N.shiftr_div_pow2. change (2 ^ 4) with 16.
  change (2 ^ 64) with 18446744073709551616. clearbody z. clear - H1. lia.
Qed.

Lemma byte_sum : forall g0 g1 g2 g3 g4 g5 g6 g7 : N,
  g0 <= 8 -> g1 <= 8 -> g2 <= 8 -> g3 <= 8 -> g4 <= 8 -> g5 <= 8 -> g6 <= 8 -> g7 <= 8 ->
  N.shiftr (wrap64 (0x0101010101010101 *
    (g0 + 256 * (g1 + 256 * (g2 + 256 * (g3 + 256 * (g4 + 256 * (g5 + 256 * (g6 + 256 * g7))))))))) 56
  = g0 + g1 + g2 + g3 + g4 + g5 + g6 + g7.
Proof.
  intros. rewrite N.shiftr_div_pow2. unfold wrap64.
  pose (R := 1 * (g0) + 256 * (g0 + g1) + 65536 * (g0 + g1 + g2) + 16777216 * (g0 + g1 + g2 + g3) + 4294967296 * (g0 + g1 + g2 + g3 + g4) + 1099511627776 * (g0 + g1 + g2 + g3 + g4 + g5) + 281474976710656 * (g0 + g1 + g2 + g3 + g4 + g5 + g6)).
  pose (Q := 1 * (g1 + g2 + g3 + g4 + g5 + g6 + g7) + 256 * (g2 + g3 + g4 + g5 + g6 + g7) + 65536 * (g3 + g4 + g5 + g6 + g7) + 16777216 * (g4 + g5 + g6 + g7) + 4294967296 * (g5 + g6 + g7) + 1099511627776 * (g6 + g7) + 281474976710656 * (g7)).
  pose (T := g0 + g1 + g2 + g3 + g4 + g5 + g6 + g7).
  assert (R < 2 ^ 56) by (subst R; change (2 ^ 56) with 72057594037927936; lia).
  assert (T <= 64) by (subst T; lia).
  replace (0x0101010101010101 * _) with ((R + T * 2 ^ 56) + Q * 2 ^ 64).
  - rewrite N.mod_add by discriminate. rewrite N.mod_small.
    + rewrite N.div_add by discriminate. rewrite N.div_small by auto. reflexivity.
    + change (2 ^ 56) with 72057594037927936 in *. change (2 ^ 64) with 18446744073709551616. lia.
  - subst R Q T. change (2 ^ 56) with 72057594037927936. change (2 ^ 64) with 18446744073709551616. ring.
Qed.

Ltac split_byte H x a b n :=
  let E := fresh in
  apply (split8 x n) in H; destruct H as (a & b & E & ? & H); subst x.

Lemma popcnt64_spec : forall x, x < 2 ^ 64 -> popcnt64 x = N.of_nat (ones_below 64 x).
Proof.
  intros x H. rewrite popcnt64_p64 by auto.
  change (2 ^ 64) with (2 ^ (8 * N.succ 7)) in H.
  split_byte H x a0 x1 7. change (2 ^ (8*7)) with (2 ^ (8 * N.succ 6)) in H.
  split_byte H x1 a1 x2 6. change (2 ^ (8*6)) with (2 ^ (8 * N.succ 5)) in H.
  split_byte H x2 a2 x3 5. change (2 ^ (8*5)) with (2 ^ (8 * N.succ 4)) in H.
  split_byte H x3 a3 x4 4. change (2 ^ (8*4)) with (2 ^ (8 * N.succ 3)) in H.
  split_byte H x4 a4 x5 3. change (2 ^ (8*3)) with (2 ^ (8 * N.succ 2)) in H.
  split_byte H x5 a5 x6 2. change (2 ^ (8*2)) with (2 ^ (8 * N.succ 1)) in H.
  split_byte H x6 a6 x7 1. change (2 ^ (8*1)) with (2 ^ 8) in H.
  rewrite !p64_join by (change (2 ^ 8) with 256 in *;
    match goal with |- _ < 2 ^ (8 * N.of_nat ?k) => let v := eval compute in (2 ^ (8 * N.of_nat k)) in change (2 ^ (8 * N.of_nat k)) with v; lia | _ => lia end).
  pose proof (byte_steps x7 H) as S7. cbv zeta in S7.
  replace (p64 1 x7) with (N.of_nat (ones_below 8 x7)) by lia.
  change 64%nat with (8+56)%nat. change (2 ^ 8) with (2 ^ N.of_nat 8) in *.
  rewrite ones_below_join by auto.
  change 56%nat with (8+48)%nat. rewrite ones_below_join by auto.
  change 48%nat with (8+40)%nat. rewrite ones_below_join by auto.
  change 40%nat with (8+32)%nat. rewrite ones_below_join by auto.
  change 32%nat with (8+24)%nat. rewrite ones_below_join by auto.
  change 24%nat with (8+16)%nat. rewrite ones_below_join by auto.
  change 16%nat with (8+8)%nat. rewrite ones_below_join by auto.
  pose proof (ones_below_le 8 a0). pose proof (ones_below_le 8 a1). pose proof (ones_below_le 8 a2).
  pose proof (ones_below_le 8 a3). pose proof (ones_below_le 8 a4). pose proof (ones_below_le 8 a5).
  pose proof (ones_below_le 8 a6). pose proof (ones_below_le 8 x7).
  change (2 ^ N.of_nat 8) with 256. rewrite byte_sum by lia. lia.
Qed.

(** *** popcnt32 *)
Lemma bytes4 : forall x, x < 2 ^ 32 -> exists a b c d,
  x = a + 2 ^ 8 * (b + 2 ^ 8 * (c + 2 ^ 8 * d)) /\ a < 2 ^ 8 /\ b < 2 ^ 8 /\ c < 2 ^ 8 /\ d < 2 ^ 8.
Proof.
  intros x H. change (2 ^ 32) with (2 ^ (8 * N.succ 3)) in H.
  split_byte H x a x1 3. change (2 ^ (8*3)) with (2 ^ (8 * N.succ 2)) in H.
  split_byte H x1 b x2 2. change (2 ^ (8*2)) with (2 ^ (8 * N.succ 1)) in H.
  split_byte H x2 c x3 1. change (2 ^ (8*1)) with (2 ^ 8) in H.
  exists a, b, c, x3. auto.
Qed.

(** nibble counts of a byte *)
Definition nlo (a : N) : N := N.of_nat (ones_below 4 a).
Definition nhi (a : N) : N := N.of_nat (ones_below 4 (N.shiftr a 4)).

Lemma byte_nibbles : forall a, a < 256 ->
  (p64a 1 a <? 256) && (p64b 1 (p64a 1 a) =? nlo a + 16 * nhi a) && (nlo a <=? 4) && (nhi a <=? 4)
  && (N.of_nat (ones_below 8 a) =? nlo a + nhi a)
  && Bool.eqb (nlo a =? 4) (N.land a 0x0F =? 0x0F) && Bool.eqb (nhi a =? 4) (N.land a 0xF0 =? 0xF0) = true.
Proof.
  apply (sweep (fun a => (p64a 1 a <? 256) && (p64b 1 (p64a 1 a) =? nlo a + 16 * nhi a) && (nlo a <=? 4) && (nhi a <=? 4)
  && (N.of_nat (ones_below 8 a) =? nlo a + nhi a)
  && Bool.eqb (nlo a =? 4) (N.land a 0x0F =? 0x0F) && Bool.eqb (nhi a =? 4) (N.land a 0xF0 =? 0xF0)) 256).
  vm_compute. reflexivity.
Qed.

Lemma byte_nib : forall a, a < 256 ->
  p64a 1 a < 256 /\ p64b 1 (p64a 1 a) = nlo a + 16 * nhi a /\ nlo a <= 4 /\ nhi a <= 4 /\
  N.of_nat (ones_below 8 a) = nlo a + nhi a /\
  (nlo a = 4 <-> N.land a 15 = 15) /\ (nhi a = 4 <-> N.land a 240 = 240).
Proof.
  intros a H. pose proof (byte_nibbles a H) as S.
  repeat match goal with S : _ && _ = true |- _ => apply andb_true_iff in S; destruct S end.
  repeat match goal with S : Bool.eqb _ _ = true |- _ => apply Bool.eqb_prop in S end.
  repeat split; try (intro; apply N.eqb_eq; first [rewrite <- H1 | rewrite H1 | rewrite <- H2 | rewrite H2]; now apply N.eqb_eq); try (now apply N.ltb_lt); try (now apply N.leb_le); try (now apply N.eqb_eq).
  all: intro; apply N.eqb_eq.
  all: try (rewrite <- H0; now apply N.eqb_eq). all: try (rewrite H0; now apply N.eqb_eq).
  all: try (rewrite <- H1; now apply N.eqb_eq). all: try (rewrite H1; now apply N.eqb_eq).
Qed.

Lemma digits4_iff : forall a b c d v, v < 256 -> a <= v -> b <= v -> c <= v -> d <= v ->
  (a + 256 * (b + 256 * (c + 256 * d)) = v + 256 * (v + 256 * (v + 256 * v)) <-> (a = v /\ b = v /\ c = v /\ d = v)).
Proof. intros. split; intros; [|intuition subst; auto]. assert (a = v) by lia. subst. assert (b = v) by lia. subst. assert (c = v) by lia. subst. lia. Qed.

Lemma nlo_iff : forall a, a < 256 -> (nlo a = 4 <-> N.land a 15 = 15) /\ nlo a <= 4.
Proof. intros. pose proof (byte_nib a H). tauto. Qed.
Lemma nhi_iff : forall a, a < 256 -> (nhi a = 4 <-> N.land a 240 = 240) /\ nhi a <= 4.
Proof. intros. pose proof (byte_nib a H). tauto. Qed.

Lemma sum4_iff : forall a b c d, a <= 4 -> b <= 4 -> c <= 4 -> d <= 4 ->
  (a + b + c + d = 16 <-> (a = 4 /\ b = 4 /\ c = 4 /\ d = 4)).
Proof. intros. lia. Qed.

Lemma popcnt32_value : forall x, x < 2 ^ 32 -> exists L H,
  L <= 16 /\ H <= 16 /\ N.of_nat (ones_below 32 x) = L + H /\
  (L = 16 <-> N.land x 0x0F0F0F0F = 0x0F0F0F0F) /\
  (H = 16 <-> N.land x 0xF0F0F0F0 = 0xF0F0F0F0) /\
  popcnt32 x = L mod 16 + (H + L / 16) mod 16.
Proof.
  intros x Hx0. pose proof Hx0 as Hx. destruct (bytes4 x Hx0) as (a & b & c & d & E & Ha & Hb & Hc & Hd).
  destruct (byte_nib a Ha) as (Pa & Qa & La & Ua & Oa & _).
  destruct (byte_nib b Hb) as (Pb & Qb & Lb & Ub & Ob & _).
  destruct (byte_nib c Hc) as (Pc & Qc & Lc & Uc & Oc & _).
  destruct (byte_nib d Hd) as (Pd & Qd & Ld & Ud & Od & _).
  exists (nlo a + nlo b + nlo c + nlo d), (nhi a + nhi b + nhi c + nhi d).
  assert (N.of_nat (ones_below 32 x) = nlo a + nlo b + nlo c + nlo d + (nhi a + nhi b + nhi c + nhi d)).
  { subst x. change 32%nat with (8+24)%nat. change (2 ^ 8) with (2 ^ N.of_nat 8) in *.
    rewrite ones_below_join by auto.
    change 24%nat with (8+16)%nat. rewrite ones_below_join by auto.
    change 16%nat with (8+8)%nat. rewrite ones_below_join by auto. lia. }
  split; [lia|]. split; [lia|]. split; [auto|].
  split; [|split].
  - subst x. change 0x0F0F0F0F with (15 + 2 ^ 8 * (15 + 2 ^ 8 * (15 + 2 ^ 8 * 15))).
    rewrite !land_join by (auto; reflexivity). change (2 ^ 8) with 256.
    rewrite digits4_iff by (try apply land_le_r; reflexivity).
    destruct (nlo_iff a Ha) as [<- ?], (nlo_iff b Hb) as [<- ?], (nlo_iff c Hc) as [<- ?], (nlo_iff d Hd) as [<- ?].
    apply sum4_iff; auto.
  - subst x. change 0xF0F0F0F0 with (240 + 2 ^ 8 * (240 + 2 ^ 8 * (240 + 2 ^ 8 * 240))).
    rewrite !land_join by (auto; reflexivity). change (2 ^ 8) with 256.
    rewrite digits4_iff by (try apply land_le_r; reflexivity).
    destruct (nhi_iff a Ha) as [<- ?], (nhi_iff b Hb) as [<- ?], (nhi_iff c Hc) as [<- ?], (nhi_iff d Hd) as [<- ?].
    apply sum4_iff; auto.
  - unfold popcnt32. rewrite (N.mod_small x) by auto.
    assert (E1: (x - N.land (N.shiftr x 1) 0x55555555) mod 2 ^ 32 = p64a 4 x).
    { rewrite N.mod_small by (eapply N.le_lt_trans; [apply N.le_sub_l|auto]). reflexivity. }
    rewrite E1. clear E1.
    assert (E2 : (N.land (p64a 4 x) 0x33333333 + N.land (N.shiftr (p64a 4 x) 2) 0x33333333) mod 2 ^ 32 = p64b 4 (p64a 4 x)).
    { rewrite N.mod_small; [reflexivity|]. pose proof (land_le_r (p64a 4 x) 0x33333333).
      pose proof (land_le_r (N.shiftr (p64a 4 x) 2) 0x33333333). change (2 ^ 32) with 4294967296. lia. }
    rewrite E2. clear E2.
    assert (E3 : p64b 4 (p64a 4 x) = (nlo a + 16 * nhi a) + 256 * ((nlo b + 16 * nhi b) + 256 * ((nlo c + 16 * nhi c) + 256 * (nlo d + 16 * nhi d)))).
    { rewrite E. change (2 ^ 8) with 256 in *. change 256 with (2 ^ 8) at 1 2 3. 
      rewrite !p64a_join by auto. rewrite !p64b_join by (change (2 ^ 8) with 256; lia). change (2 ^ 8) with 256. lia. }
    rewrite E3. clear E3. rewrite !N.shiftr_div_pow2.
    pose (ga := nlo a + 16 * nhi a). pose (gb := nlo b + 16 * nhi b).
    pose (gc := nlo c + 16 * nhi c). pose (gd := nlo d + 16 * nhi d).
    fold ga gb gc gd.
    assert (ga <= 68 /\ gb <= 68 /\ gc <= 68 /\ gd <= 68) as (? & ? & ? & ?) by (subst ga gb gc gd; lia).
    pose (R := ga + 256 * (ga + gb) + 65536 * (ga + gb + gc)).
    pose (Q := (gb + gc + gd) + 256 * (gc + gd) + 65536 * gd).
    pose (S := ga + gb + gc + gd).
    replace (0x01010101 * (ga + 256 * (gb + 256 * (gc + 256 * gd)))) with (R + 16777216 * S + 4294967296 * Q) by (subst R Q S; ring).
    replace (0x10101010 * (ga + 256 * (gb + 256 * (gc + 256 * gd)))) with (16 * R + 268435456 * S + 68719476736 * Q) by (subst R Q S; ring).
    assert (R < 16777216) by (subst R; lia).
    assert (HS : S = (nlo a + nlo b + nlo c + nlo d) + 16 * (nhi a + nhi b + nhi c + nhi d)) by (subst S ga gb gc gd; ring).
    change (2 ^ 32) with 4294967296. change (2 ^ 28) with 268435456.
    set (L := nlo a + nlo b + nlo c + nlo d) in *. set (Hh := nhi a + nhi b + nhi c + nhi d) in *.
    assert (L <= 16) by (subst L; lia). assert (Hh <= 16) by (subst Hh; lia).
    clearbody R Q S L Hh. clear - H4 HS H5 H6. subst S. 
    replace ((16 * R + 268435456 * (L + 16 * Hh) + 68719476736 * Q) mod 4294967296) with (16 * R + 268435456 * (L mod 16)).
    2:{ apply N.mod_unique with (L / 16 + Hh + 16 * Q); lia. }
    replace ((R + 16777216 * (L + 16 * Hh) + 4294967296 * Q) mod 4294967296) with (R + 16777216 * ((L + 16 * Hh) mod 256)).
    2:{ apply N.mod_unique with ((L + 16 * Hh) / 256 + Q); lia. }
    replace ((16 * R + 268435456 * (L mod 16)) / 268435456) with (L mod 16).
    2:{ apply N.div_unique with (16 * R); lia. }
    replace ((R + 16777216 * ((L + 16 * Hh) mod 256)) / 268435456) with (((L + 16 * Hh) mod 256) / 16).
    2:{ apply N.div_unique with (R + 16777216 * (((L + 16 * Hh) mod 256) mod 16)); lia. }
    lia.
Qed.

Lemma popcnt32_iff : forall x, x < 2 ^ 32 ->
  (popcnt32 x = N.of_nat (ones_below 32 x) <->
   N.land x 0x0F0F0F0F <> 0x0F0F0F0F /\ N.land x 0xF0F0F0F0 <> 0xF0F0F0F0).
Proof.
  intros. destruct (popcnt32_value x H) as (L & Hh & ? & ? & -> & <- & <- & ->). lia.
Qed.

Lemma popcnt32_good : forall x, x < 2 ^ 32 ->
  N.land x 0x0F0F0F0F <> 0x0F0F0F0F -> N.land x 0xF0F0F0F0 <> 0xF0F0F0F0 ->
  popcnt32 x = N.of_nat (ones_below 32 x).
Proof. intros. apply popcnt32_iff; auto. Qed.

(** *** field counts *)
Lemma fields_equal_S : forall k n v x, fields_equal k (S n) v x =
  ((if N.eqb (field k x n) v then 1 else 0) + fields_equal k n v x)%nat.
Proof.
  intros. unfold fields_equal. rewrite seq_S, filter_app, app_length. simpl.
  destruct (N.eqb (field k x n) v); simpl; lia.
Qed.

Lemma field_testbit : forall k x j i, i < N.of_nat k -> N.testbit (field k x j) i = N.testbit x (i + N.of_nat (j * k)).
Proof. intros. unfold field. rewrite N.mod_pow2_bits_low by auto. apply N.shiftr_spec'. Qed.

Lemma field_lt : forall k x j, field k x j < 2 ^ N.of_nat k.
Proof. intros. apply N.mod_upper_bound. apply N.pow_nonzero. lia. Qed.

Lemma field_eq_bits : forall k x y j j',
  (forall i, i < N.of_nat k -> N.testbit x (i + N.of_nat (j * k)) = N.testbit y (i + N.of_nat (j' * k))) ->
  field k x j = field k y j'.
Proof.
  intros. apply N.bits_inj; intro i. destruct (N.lt_ge_cases i (N.of_nat k)).
  - rewrite !field_testbit by auto. auto.
  - rewrite !(testbit_high (field _ _ _) (N.of_nat k)) by (auto using field_lt). reflexivity.
Qed.

Lemma fields_equal_add : forall k m n v x,
  fields_equal k (m + n) v x = (fields_equal k m v x + fields_equal k n v (N.shiftr x (N.of_nat (m * k))))%nat.
Proof.
  intros. induction n.
  - rewrite Nat.add_0_r. unfold fields_equal at 3. simpl. lia.
  - rewrite Nat.add_succ_r, !fields_equal_S, IHn.
    replace (field k x (m + n)) with (field k (N.shiftr x (N.of_nat (m * k))) n); [lia|].
    apply field_eq_bits. intros. rewrite N.shiftr_spec'. f_equal. nia.
Qed.

Lemma fields_equal_ext : forall k n v x y,
  (forall i, i < N.of_nat (n * k) -> N.testbit x i = N.testbit y i) ->
  fields_equal k n v x = fields_equal k n v y.
Proof.
  induction n; intros; auto. rewrite !fields_equal_S. rewrite (IHn v x y) by (intros; apply H; nia).
  replace (field k x n) with (field k y n); auto. apply field_eq_bits. intros. symmetry. apply H. nia.
Qed.

Lemma fields_equal_join : forall k m n v a b, a < 2 ^ N.of_nat (m * k) ->
  fields_equal k (m + n) v (a + 2 ^ N.of_nat (m * k) * b) = (fields_equal k m v a + fields_equal k n v b)%nat.
Proof.
  intros. rewrite fields_equal_add. f_equal.
  - apply fields_equal_ext. intros. rewrite testbit_join by auto.
    destruct (N.ltb_spec i (N.of_nat (m * k))); auto; lia.
  - apply fields_equal_ext. intros. rewrite N.shiftr_spec', testbit_join by auto.
    destruct (N.ltb_spec (i + N.of_nat (m * k)) (N.of_nat (m * k))); try lia. f_equal. lia.
Qed.

Lemma fields_equal_le : forall k n v x, (fields_equal k n v x <= n)%nat.
Proof. induction n; intros; [unfold fields_equal; simpl; lia|]. rewrite fields_equal_S. specialize (IHn v x). destruct N.eqb; lia. Qed.

(** generic statement for the byte-wise part of popcnt11/popcnt10 *)
Lemma sum2_gen : forall (t : nat -> N -> N) (v : N),
  (forall n a b, a < 2 ^ 8 -> t (S n) (a + 2 ^ 8 * b) = t 1%nat a + 2 ^ 8 * t n b) ->
  (forall x, t O x = 0) ->
  (forall a, a < 256 -> let b := p64b 1 (t 1%nat a) in
     (t 1%nat a <? 256) && (b <? 256) && (b / 16 <=? 4) && (b mod 16 <=? 4) &&
     (p64c 1 b =? N.of_nat (fields_equal 2 4 v a)) = true) ->
  (forall x, t 8%nat x <= 0x5555555555555555) ->
  forall x, x < 2 ^ 64 -> sum2 (t 8%nat x) = N.of_nat (fields_equal 2 32 v x).
Proof.
  intros t v Hj H0 Hs Hb8 x Hx.
  set (q := fun n x => p64c n (p64b n (t n x))).
  assert (Hlow : forall n x, x < 2 ^ (8 * N.of_nat n) -> (p64b n (t n x)) mod 16 <= 4).
  { destruct n; intros y Hy.
    - rewrite H0. unfold p64b. change (rep 0 51) with 0. cbn. lia.
    - replace (N.of_nat (S n)) with (N.succ (N.of_nat n)) in Hy by lia.
      apply split8 in Hy. destruct Hy as (a & b & -> & Ha & Hb). rewrite Hj by auto.
      pose proof (Hs a Ha) as S. cbv zeta in S.
      rewrite p64b_join by (change (2^8) with 256; lia). change (2 ^ 8) with 256. lia. }
  assert (Hq : forall n a b, a < 2 ^ 8 -> b < 2 ^ (8 * N.of_nat n) ->
     q (S n) (a + 2 ^ 8 * b) = N.of_nat (fields_equal 2 4 v a) + 2 ^ 8 * q n b).
  { intros. unfold q. pose proof (Hs a H) as S. cbv zeta in S. pose proof (Hlow n b H1).
    rewrite Hj by auto. rewrite p64b_join by (change (2^8) with 256; lia).
    rewrite p64c_join by (change (2^8) with 256; lia). lia. }
  assert (Hq0 : forall x, q O x = 0).
  { intro y. unfold q. rewrite H0. reflexivity. }
  assert (Hsum : sum2 (t 8%nat x) = N.shiftr (wrap64 (0x0101010101010101 * q 8%nat x)) 56).
  { unfold sum2, q. specialize (Hb8 x). set (y := t 8%nat x) in *.
    assert (E2: wrap64 (N.land y 0x3333333333333333 + N.land (N.shiftr y 2) 0x3333333333333333) = p64b 8 y).
    { unfold p64b. change (rep 8 0x33) with 0x3333333333333333. apply wrap64_small.
      pose proof (land_le_r y 0x3333333333333333). pose proof (land_le_r (N.shiftr y 2) 0x3333333333333333).
      change (2 ^ 64) with 18446744073709551616 in *. lia. }
    rewrite E2.
    assert (p64b 8 y <= 0x6666666666666666).
    { unfold p64b. change (rep 8 0x33) with 0x3333333333333333.
      pose proof (land_le_r y 0x3333333333333333). pose proof (land_le_r (N.shiftr y 2) 0x3333333333333333). lia. }
    set (z := p64b 8 y) in *. unfold p64c. change (rep 8 0x0F) with 0x0F0F0F0F0F0F0F0F.
    rewrite (wrap64_small (z + N.shiftr z 4)); auto.
    rewrite N.shiftr_div_pow2. change (2 ^ 4) with 16.
    change (2 ^ 64) with 18446744073709551616. clearbody z. clear - H. lia. }
  rewrite Hsum. clear Hsum. rename Hx into H.
  change (2 ^ 64) with (2 ^ (8 * N.succ 7)) in H.
  split_byte H x a0 x1 7. change (2 ^ (8*7)) with (2 ^ (8 * N.succ 6)) in H.
  split_byte H x1 a1 x2 6. change (2 ^ (8*6)) with (2 ^ (8 * N.succ 5)) in H.
  split_byte H x2 a2 x3 5. change (2 ^ (8*5)) with (2 ^ (8 * N.succ 4)) in H.
  split_byte H x3 a3 x4 4. change (2 ^ (8*4)) with (2 ^ (8 * N.succ 3)) in H.
  split_byte H x4 a4 x5 3. change (2 ^ (8*3)) with (2 ^ (8 * N.succ 2)) in H.
  split_byte H x5 a5 x6 2. change (2 ^ (8*2)) with (2 ^ (8 * N.succ 1)) in H.
  split_byte H x6 a6 x7 1. change (2 ^ (8*1)) with (2 ^ 8) in H.
  replace x7 with (x7 + 2 ^ 8 * 0) by lia.
  rewrite !Hq by (change (2 ^ 8) with 256 in *;
    match goal with |- _ < 2 ^ (8 * N.of_nat ?k) => let v := eval compute in (2 ^ (8 * N.of_nat k)) in change (2 ^ (8 * N.of_nat k)) with v; lia | _ => lia end).
  rewrite Hq0. rewrite !N.mul_0_r, !N.add_0_r.
  change 32%nat with (4+(4+(4+(4+(4+(4+(4+4))))))%nat)%nat. change (2 ^ 8) with (2 ^ N.of_nat (4 * 2)) in *.
  rewrite !fields_equal_join by auto.
  pose proof (fields_equal_le 2 4 v a0). pose proof (fields_equal_le 2 4 v a1). pose proof (fields_equal_le 2 4 v a2).
  pose proof (fields_equal_le 2 4 v a3). pose proof (fields_equal_le 2 4 v a4). pose proof (fields_equal_le 2 4 v a5).
  pose proof (fields_equal_le 2 4 v a6). pose proof (fields_equal_le 2 4 v x7).
  change (2 ^ N.of_nat (4*2)) with 256. rewrite byte_sum by lia. lia.
Qed.

Definition t11 (n : nat) (x : N) : N := N.land x (N.land (N.shiftr x 1) (rep n 0x55)).
Definition t10 (n : nat) (x : N) : N := N.land (N.lnot x (8 * N.of_nat n)) (N.land (N.shiftr x 1) (rep n 0x55)).

Lemma land_lt_r : forall a b k, b < k -> N.land a b < k.
Proof. intros. pose proof (land_le_r a b). lia. Qed.

Lemma t11_join : forall n a b, a < 2 ^ 8 -> t11 (S n) (a + 2 ^ 8 * b) = t11 1 a + 2 ^ 8 * t11 n b.
Proof.
  intros. unfold t11. rewrite rep_1, rep_S, shr_land_join by (auto; try lia; reflexivity).
  rewrite land_join; auto. apply land_lt_r. reflexivity.
Qed.

Lemma t10_join : forall n a b, a < 2 ^ 8 -> t10 (S n) (a + 2 ^ 8 * b) = t10 1 a + 2 ^ 8 * t10 n b.
Proof.
  intros. unfold t10. rewrite rep_1, rep_S, shr_land_join by (auto; try lia; reflexivity).
  replace (8 * N.of_nat (S n)) with (8 + 8 * N.of_nat n) by lia. rewrite lnot_join by auto.
  rewrite land_join; auto.
  - apply lt_pow2_bits; intros. change (8 * N.of_nat 1) with 8. rewrite N.lnot_spec_high by auto. now apply testbit_high with 8.
  - apply land_lt_r. reflexivity.
Qed.

Lemma popcnt11_spec : forall x, x < 2 ^ 64 -> popcnt11 x = N.of_nat (fields_equal 2 32 3 x).
Proof.
  intros. unfold popcnt11. rewrite <- N.land_assoc. change 0x5555555555555555 with (rep 8 0x55).
  apply (sum2_gen t11); auto using t11_join.
  - intro y. unfold t11. change (rep 0 85) with 0. now rewrite !N.land_0_r.
  - apply (sweep (fun a => let b := p64b 1 (t11 1%nat a) in
     (t11 1%nat a <? 256) && (b <? 256) && (b / 16 <=? 4) && (b mod 16 <=? 4) &&
     (p64c 1 b =? N.of_nat (fields_equal 2 4 3 a))) 256). vm_compute. reflexivity.
  - intro y. unfold t11. etransitivity; [apply land_le_r|]. etransitivity; [apply land_le_r|]. vm_compute. discriminate.
Qed.

Lemma popcnt10_spec : forall x, x < 2 ^ 64 -> popcnt10 x = N.of_nat (fields_equal 2 32 2 x).
Proof.
  intros. unfold popcnt10. rewrite <- N.land_assoc. change 0x5555555555555555 with (rep 8 0x55).
  apply (sum2_gen t10); auto using t10_join.
  - intro y. unfold t10. change (rep 0 85) with 0. now rewrite !N.land_0_r.
  - apply (sweep (fun a => let b := p64b 1 (t10 1%nat a) in
     (t10 1%nat a <? 256) && (b <? 256) && (b / 16 <=? 4) && (b mod 16 <=? 4) &&
     (p64c 1 b =? N.of_nat (fields_equal 2 4 2 a))) 256). vm_compute. reflexivity.
  - intro y. unfold t10. etransitivity; [apply land_le_r|]. etransitivity; [apply land_le_r|]. vm_compute. discriminate.
Qed.
