(** Proofs about BitVectorModel.v *)
From Coq Require Import List NArith ZArith Lia Bool Arith.
From Coq Require Import ZifyBool ZifyNat ZifyN.
From Verif Require Import Base Spec BitUtilModel BitUtilProof BitUtilProof2 XorMapProof BitVectorModel.
Import ListNotations.
Local Open Scope nat_scope.

(** ** Iterators *)
Definition ipos (i : iter) : Z := (64 * seg i + Z.of_N (ctz_ i))%Z.
Definition iwf (i : iter) : Prop := (ctz_ i < 64)%N.

Lemma sgn64_id : forall z, (- 2 ^ 63 <= z < 2 ^ 63)%Z -> sgn64 z = z.
Proof. intros. unfold sgn64. rewrite Z.mod_small; lia. Qed.

Lemma land63 : forall d, Z.land d (64 - 1) = (d mod 64)%Z.
Proof. intros. change (64 - 1)%Z with (Z.ones 6). now rewrite Z.land_ones by lia. Qed.

Lemma iter_plus_eq_pos : forall i d, iwf i -> (- 2 ^ 63 + 63 <= d < 2 ^ 63)%Z ->
  iwf (iter_plus_eq i d) /\ ipos (iter_plus_eq i d) = (ipos i + d)%Z.
Proof.
  intros [s c] d H Hd. unfold iwf, ipos in *. unfold iter_plus_eq. cbn [seg ctz_] in *. rewrite land63.
  assert (Hc : (0 <= Z.of_N c < 64)%Z) by lia. set (z := Z.of_N c) in *. clearbody z. clear H.
  assert (B : (0 <= (d mod 64 + z) mod 64 < 64)%Z) by (apply Z.mod_pos_bound; lia).
  split; [lia|]. rewrite Z2N.id by lia. rewrite Z.add_mod_idemp_l by lia.
  destruct (Z.leb_spec 0 d).
  - rewrite (Z.mod_small (z + d) (2 ^ 64)) by lia.
    Z.to_euclidean_division_equations; lia.
  - rewrite sgn64_id by lia. clear B.
    Z.to_euclidean_division_equations; lia.
Qed.

Lemma iter_inc_pos : forall i, iwf i -> iwf (iter_inc i) /\ ipos (iter_inc i) = (ipos i + 1)%Z.
Proof.
  intros [s c] H. unfold iwf, ipos, iter_inc in *. cbn [seg ctz_] in *.
  destruct (N.eqb_spec c (64 - 1)); cbn [seg ctz_]; lia.
Qed.

Lemma iter_dec_pos : forall i, iwf i -> iwf (iter_dec i) /\ ipos (iter_dec i) = (ipos i - 1)%Z.
Proof.
  intros [s c] H. unfold iwf, ipos, iter_dec in *. cbn [seg ctz_] in *.
  destruct (N.eqb_spec c 0); cbn [seg ctz_]; lia.
Qed.

Lemma iter_eqb_pos : forall i j, iwf i -> iwf j -> iter_eqb i j = (ipos i =? ipos j)%Z.
Proof. intros [s c] [s' c'] H H'. unfold iwf, ipos, iter_eqb in *. cbn [seg ctz_] in *. lia. Qed.

Lemma iter_ltb_pos : forall i j, iwf i -> iwf j -> iter_ltb i j = (ipos i <? ipos j)%Z.
Proof. intros [s c] [s' c'] H H'. unfold iwf, ipos, iter_ltb in *. cbn [seg ctz_] in *. lia. Qed.

Lemma iter_diff_pos : forall i j, iwf i -> iwf j -> (- 2 ^ 63 <= ipos i - ipos j < 2 ^ 63)%Z ->
  iter_diff i j = (ipos i - ipos j)%Z.
Proof.
  intros [s c] [s' c'] H H' Hd. unfold iwf, ipos, iter_diff in *. cbn [seg ctz_] in *.
  rewrite sgn64_id; lia.
Qed.

Lemma ipos_inj : forall i j, iwf i -> iwf j -> ipos i = ipos j -> i = j.
Proof. intros [s c] [s' c'] H H' E. unfold iwf, ipos in *. cbn [seg ctz_] in *. f_equal; lia. Qed.

Lemma make_iter_pos : forall p, iwf (make_iter p) /\ ipos (make_iter p) = Z.of_nat p.
Proof.
  intros. unfold iwf, ipos, make_iter. cbn [seg ctz_].
  pose proof (Nat.div_mod p 64). pose proof (Nat.mod_upper_bound p 64). lia.
Qed.

Lemma ipos_make_iter : forall i p, iwf i -> ipos i = Z.of_nat p -> i = make_iter p.
Proof. intros. destruct (make_iter_pos p). apply ipos_inj; auto. congruence. Qed.

Lemma iter_plus_make : forall p d, (- 2 ^ 63 + 63 <= d < 2 ^ 63)%Z -> (0 <= Z.of_nat p + d)%Z ->
  iter_plus_eq (make_iter p) d = make_iter (Z.to_nat (Z.of_nat p + d)).
Proof.
  intros. destruct (make_iter_pos p) as [A B]. destruct (iter_plus_eq_pos (make_iter p) d) as [C D]; auto.
  apply ipos_make_iter; auto. lia.
Qed.

Lemma iter_minus_1 : forall p, 1 <= p -> iter_minus (make_iter p) 1 = make_iter (p - 1).
Proof.
  intros. unfold iter_minus, iter_minus_eq. rewrite sgn64_id by lia. rewrite iter_plus_make by lia.
  f_equal. lia.
Qed.

(** ** Words *)
Definition bitat (ws : list N) (i : nat) : bool := N.testbit (nth (i / 64) ws 0%N) (N.of_nat (i mod 64)).
Definition small (ws : list N) : Prop := Forall (fun w => (w < 2 ^ 64)%N) ws.

Lemma small_nth : forall ws k, small ws -> (nth k ws 0 < 2 ^ 64)%N.
Proof.
  intros ws k H. destruct (Nat.lt_ge_cases k (length ws)).
  - unfold small in H. rewrite Forall_forall in H. apply H. now apply nth_In.
  - rewrite nth_overflow by auto. reflexivity.
Qed.

Lemma small_upd : forall ws k w, small ws -> (w < 2 ^ 64)%N -> small (upd ws k w).
Proof.
  unfold small. induction ws; intros k w H Hw; destruct k; simpl; auto; inversion H; subst; constructor; auto.
Qed.

Lemma small_repeat0 : forall n, small (repeat 0%N n).
Proof. induction n; simpl; constructor; auto. reflexivity. Qed.

Lemma small_lresize : forall ws n, small ws -> small (lresize ws n 0%N).
Proof.
  intros. unfold lresize, small. apply Forall_app. split; [|apply small_repeat0].
  apply Forall_forall. intros x Hx. unfold small in H. rewrite Forall_forall in H. apply H.
  rewrite <- (firstn_skipn n ws). apply in_or_app. auto.
Qed.

Lemma bitat_upd : forall ws k w j, k < length ws ->
  bitat (upd ws k w) j = if j / 64 =? k then N.testbit w (N.of_nat (j mod 64)) else bitat ws j.
Proof.
  intros. unfold bitat. rewrite nth_upd. assert (X : k <? length ws = true) by lia. rewrite X, andb_true_r.
  destruct (j / 64 =? k); auto.
Qed.

Lemma wgetZ_nat : forall ws k, k < length ws -> wgetZ ws (Z.of_nat k) = Ok (nth k ws 0%N).
Proof.
  intros. unfold wgetZ. destruct (Z.ltb_spec (Z.of_nat k) 0); [lia|]. rewrite Nat2Z.id. now apply lget_nth.
Qed.
Lemma wsetZ_nat : forall ws k w, k < length ws -> wsetZ ws (Z.of_nat k) w = Ok (upd ws k w).
Proof.
  intros. unfold wsetZ. destruct (Z.ltb_spec (Z.of_nat k) 0); [lia|]. rewrite Nat2Z.id. now apply lset_Ok.
Qed.

Lemma all_ones_bits : forall i, N.testbit all_ones i = (i <? 64)%N.
Proof.
  intros. change all_ones with (N.ones 64). destruct (N.ltb_spec i 64).
  - now apply N.ones_spec_low.
  - now apply N.ones_spec_high.
Qed.

Lemma land_small : forall a b w, (a < 2 ^ w)%N -> (N.land a b < 2 ^ w)%N.
Proof. intros. pose proof (land_le_l a b). lia. Qed.

(** ** _fill *)
Lemma fill_inner_spec : forall v n from ws, (v < 2 ^ 64)%N -> from + n <= length ws -> small ws ->
  exists ws', fill_inner v (Z.of_nat from) n ws = Ok ws' /\ length ws' = length ws /\ small ws' /\
    forall k, nth k ws' 0%N = if (from <=? k) && (k <? from + n) then v else nth k ws 0%N.
Proof.
  intros v n. induction n; intros from ws Hv Hl Hs; unfold fill_inner in *.
  - exists ws. simpl. repeat split; auto. intros. destruct (Nat.leb_spec from k), (Nat.ltb_spec k (from + 0)); simpl; auto; lia.
  - rewrite seq_S, foldM_app. destruct (IHn from ws Hv) as (ws' & E & L & Sm & Nw); auto; try lia.
    rewrite E. cbn [bind foldM]. rewrite <- Nat2Z.inj_add. rewrite wsetZ_nat by lia. cbn [bind].
    eexists. split; [reflexivity|]. rewrite upd_length. split; auto. split; [now apply small_upd|].
    intros. rewrite nth_upd, Nw, Nat.add_0_l.
    destruct (Nat.eqb_spec k (from + n)), (Nat.ltb_spec (from + n) (length ws')), (Nat.leb_spec from k), (Nat.ltb_spec k (from + n)), (Nat.ltb_spec k (from + S n)); simpl; auto; lia.
Qed.

Lemma shl64_Ok : forall x k, (k < 64)%N -> shl64 x k = Ok (wshl x k).
Proof. intros. unfold shl64. destruct (N.ltb_spec k 64); auto; lia. Qed.
Lemma shr64_Ok : forall x k, (k < 64)%N -> shr64 x k = Ok (N.shiftr x k).
Proof. intros. unfold shr64. destruct (N.ltb_spec k 64); auto; lia. Qed.

Lemma lor_bit : forall (w m : N) o, N.testbit (N.lor w m) o = (N.testbit w o || N.testbit m o).
Proof. intros. apply N.lor_spec. Qed.

(** position of a bit: word and offset *)
Lemma pos_split : forall j, exists k o, j = 64 * k + o /\ o < 64 /\ j / 64 = k /\ j mod 64 = o.
Proof.
  intros. exists (j / 64), (j mod 64). pose proof (Nat.div_mod j 64). pose proof (Nat.mod_upper_bound j 64). lia.
Qed.

Lemma hi_mask_bit : forall c o, (c < 64)%N -> o < 64 -> N.testbit (wshl all_ones c) (N.of_nat o) = (c <=? N.of_nat o)%N.
Proof.
  intros. rewrite wshl_spec, all_ones_bits.
  destruct (N.ltb_spec (N.of_nat o) 64), (N.leb_spec c (N.of_nat o)), (N.ltb_spec (N.of_nat o - c) 64); simpl; auto; lia.
Qed.
Lemma lo_mask_bit : forall c o, (c < 64)%N -> o < 64 -> N.testbit (N.shiftr all_ones c) (N.of_nat o) = (N.of_nat o + c <? 64)%N.
Proof. intros. rewrite N.shiftr_spec', all_ones_bits. auto. Qed.
Lemma wshl_small : forall x c, (wshl x c < 2 ^ 64)%N.
Proof. intros. unfold wshl. apply wrap64_lt. Qed.
Lemma wnot_small : forall x, (x < 2 ^ 64)%N -> (wnot x < 2 ^ 64)%N.
Proof.
  intros. apply lt_pow2_bits. intros. unfold wnot. rewrite N.lnot_spec_high by auto.
  now apply testbit_high with (w := 64%N).
Qed.

Ltac eqk k := match goal with H : k = _ |- _ => rewrite H in * end.

Lemma fill_spec : forall ws b e bit, small ws -> e <= 64 * length ws ->
  exists ws', fill ws (make_iter b) (make_iter e) bit = Ok ws' /\ length ws' = length ws /\ small ws' /\
    forall j, bitat ws' j = if (b <=? j) && (j <? e) then bit else bitat ws j.
Proof.
  intros ws b e bit Hs He. unfold fill.
  destruct (make_iter_pos b) as [Wb Pb]. destruct (make_iter_pos e) as [We Pe].
  unfold iter_leb. rewrite iter_ltb_pos by auto. rewrite Pb, Pe.
  destruct (Z.ltb_spec (Z.of_nat b) (Z.of_nat e)); simpl negb; cbv iota.
  2: { exists ws. repeat split; auto. intros. destruct (Nat.leb_spec b j), (Nat.ltb_spec j e); simpl; auto; lia. }
  rewrite iter_minus_1 by lia.
  assert (Hbe : b < e) by lia. clear H Wb Pb We Pe.
  unfold make_iter. cbn [seg ctz_].
  destruct (pos_split b) as (kb & ob & Eb & Lb & -> & ->).
  destruct (pos_split (e - 1)) as (ke & oe & Ee & Le & -> & ->).
  assert (Eoe : e mod 64 = if oe =? 63 then 0 else oe + 1).
  { destruct (Nat.eqb_spec oe 63).
    - symmetry. apply Nat.mod_unique with (ke + 1); lia.
    - symmetry. apply Nat.mod_unique with ke; lia. }
  assert (Hkb : kb < length ws) by lia. assert (Hke : ke < length ws) by lia.
  set (inner := Z.to_nat _).
  assert (Hi : inner = ke - (kb + 1)) by (subst inner; lia). clearbody inner. subst inner.
  replace (Z.of_nat kb + 1)%Z with (Z.of_nat (kb + 1)) by lia.
  assert (MB : (N.of_nat ob < 64)%N) by lia.
  assert (ME : (64 - (N.of_nat oe + 1) < 64)%N) by lia.
  rewrite wgetZ_nat by auto. rewrite shl64_Ok by auto. rewrite shr64_Ok by auto. cbn [bind].
  destruct (Z.ltb_spec (Z.of_nat kb) (Z.of_nat ke)) as [Hk|Hk].
  - (* several words *)
    assert (Gen : forall (w1 vin w2 : N -> N) , True) by auto. clear Gen.
    destruct bit.
    + rewrite wsetZ_nat by auto. cbn [bind].
      set (ws1 := upd ws kb _).
      assert (S1 : small ws1) by (apply small_upd; auto; apply lor_lt; [now apply small_nth|apply wshl_small]).
      assert (L1 : length ws1 = length ws) by apply upd_length.
      destruct (fill_inner_spec all_ones (ke - (kb + 1)) (kb + 1) ws1) as (ws2 & E2 & L2 & S2 & N2); auto; try lia; [reflexivity|].
      rewrite E2. cbn [bind]. rewrite wgetZ_nat by lia. cbn [bind].
      assert (EM : (if (0 <? N.of_nat (e mod 64))%N then do m <- shl64 all_ones (N.of_nat (e mod 64)); Ok (wnot m) else Ok all_ones)
         = Ok (if (0 <? N.of_nat (e mod 64))%N then wnot (wshl all_ones (N.of_nat (e mod 64))) else all_ones)).
      { destruct (0 <? N.of_nat (e mod 64))%N; auto. rewrite shl64_Ok; auto. pose proof (Nat.mod_upper_bound e 64). lia. }
      rewrite EM. clear EM. cbn [bind]. set (m := if (0 <? N.of_nat (e mod 64))%N then wnot (wshl all_ones (N.of_nat (e mod 64))) else all_ones).
      assert (Hm : forall o, o < 64 -> N.testbit m (N.of_nat o) = (o <=? oe)).
      { intros o Ho. subst m. rewrite Eoe. destruct (Nat.eqb_spec oe 63).
        - simpl N.of_nat. cbv iota beta. change (0 <? 0)%N with false. cbv iota. rewrite all_ones_bits. lia.
        - destruct (N.ltb_spec 0 (N.of_nat (oe + 1))); [|lia]. rewrite wnot_spec by lia. rewrite hi_mask_bit by lia. lia. }
      assert (Sm : (m < 2 ^ 64)%N).
      { subst m. destruct (0 <? _)%N; [apply wnot_small, wshl_small|reflexivity]. }
      clearbody m. rewrite wsetZ_nat by lia. eexists. split; [reflexivity|].
      rewrite upd_length. split; [lia|]. split; [apply small_upd; auto; apply lor_lt; auto; now apply small_nth|].
      intros j. destruct (pos_split j) as (k & o & Ej & Lo & Ek & Eo).
      rewrite bitat_upd by lia. rewrite Ek, Eo. destruct (Nat.eqb_spec k ke).
      * eqk k. rewrite N.lor_spec, Hm by auto. rewrite N2. 
        destruct (Nat.leb_spec (kb + 1) ke), (Nat.ltb_spec ke (kb + 1 + (ke - (kb + 1)))); try lia. simpl andb. cbv iota.
        unfold ws1. rewrite nth_upd. destruct (Nat.eqb_spec ke kb); [lia|]. simpl andb. cbv iota.
        unfold bitat. rewrite Ek, Eo.
        destruct (Nat.leb_spec b j), (Nat.ltb_spec j e), (Nat.leb_spec o oe); try lia; simpl; try now rewrite orb_true_r. now rewrite orb_false_r.
      * unfold bitat. rewrite Ek, Eo, N2.
        destruct (Nat.leb_spec (kb + 1) k), (Nat.ltb_spec k (kb + 1 + (ke - (kb + 1)))); simpl andb; cbv iota.
        -- rewrite all_ones_bits. destruct (Nat.leb_spec b j), (Nat.ltb_spec j e); simpl; lia.
        -- unfold ws1. rewrite nth_upd. destruct (Nat.eqb_spec k kb); [lia|]. simpl.
           destruct (Nat.leb_spec b j), (Nat.ltb_spec j e); simpl; auto; lia.
        -- unfold ws1. rewrite nth_upd. destruct (Nat.eqb_spec k kb).
           ++ eqk k. destruct (Nat.ltb_spec kb (length ws)); [|lia]. simpl andb. cbv iota.
              rewrite N.lor_spec, hi_mask_bit by lia.
              destruct (Nat.leb_spec b j), (Nat.ltb_spec j e), (N.leb_spec (N.of_nat ob) (N.of_nat o)); simpl; try lia; try now rewrite orb_true_r. now rewrite orb_false_r.
           ++ simpl. destruct (Nat.leb_spec b j), (Nat.ltb_spec j e); simpl; auto; lia.
        -- lia.
    + rewrite wsetZ_nat by auto. cbn [bind].
      set (ws1 := upd ws kb _).
      assert (S1 : small ws1) by (apply small_upd; auto; apply land_small; now apply small_nth).
      assert (L1 : length ws1 = length ws) by apply upd_length.
      destruct (fill_inner_spec 0%N (ke - (kb + 1)) (kb + 1) ws1) as (ws2 & E2 & L2 & S2 & N2); auto; try lia.
      rewrite E2. cbn [bind]. rewrite wgetZ_nat by lia. cbn [bind].
      assert (EM : (if (0 <? N.of_nat (e mod 64))%N then shl64 all_ones (N.of_nat (e mod 64)) else Ok 0%N)
         = Ok (if (0 <? N.of_nat (e mod 64))%N then wshl all_ones (N.of_nat (e mod 64)) else 0%N)).
      { destruct (0 <? N.of_nat (e mod 64))%N; auto. rewrite shl64_Ok; auto. pose proof (Nat.mod_upper_bound e 64). lia. }
      rewrite EM. clear EM. cbn [bind]. set (m := if (0 <? N.of_nat (e mod 64))%N then wshl all_ones (N.of_nat (e mod 64)) else 0%N).
      assert (Hm : forall o, o < 64 -> N.testbit m (N.of_nat o) = negb (o <=? oe)).
      { intros o Ho. subst m. rewrite Eoe. destruct (Nat.eqb_spec oe 63).
        - simpl N.of_nat. cbv iota beta. change (0 <? 0)%N with false. cbv iota. rewrite N.bits_0. lia.
        - destruct (N.ltb_spec 0 (N.of_nat (oe + 1))); [|lia]. rewrite hi_mask_bit by lia. lia. }
      clearbody m. rewrite wsetZ_nat by lia. eexists. split; [reflexivity|].
      rewrite upd_length. split; [lia|]. split; [apply small_upd; auto; apply land_small; now apply small_nth|].
      intros j. destruct (pos_split j) as (k & o & Ej & Lo & Ek & Eo).
      rewrite bitat_upd by lia. rewrite Ek, Eo. destruct (Nat.eqb_spec k ke).
      * eqk k. rewrite N.land_spec, Hm by auto. rewrite N2. 
        destruct (Nat.leb_spec (kb + 1) ke), (Nat.ltb_spec ke (kb + 1 + (ke - (kb + 1)))); try lia. simpl andb. cbv iota.
        unfold ws1. rewrite nth_upd. destruct (Nat.eqb_spec ke kb); [lia|]. simpl andb. cbv iota.
        unfold bitat. rewrite Ek, Eo.
        destruct (Nat.leb_spec b j), (Nat.ltb_spec j e), (Nat.leb_spec o oe); try lia; simpl; try now rewrite andb_false_r. now rewrite andb_true_r.
      * unfold bitat. rewrite Ek, Eo, N2.
        destruct (Nat.leb_spec (kb + 1) k), (Nat.ltb_spec k (kb + 1 + (ke - (kb + 1)))); simpl andb; cbv iota.
        -- rewrite N.bits_0. destruct (Nat.leb_spec b j), (Nat.ltb_spec j e); simpl; auto; lia.
        -- unfold ws1. rewrite nth_upd. destruct (Nat.eqb_spec k kb); [lia|]. simpl.
           destruct (Nat.leb_spec b j), (Nat.ltb_spec j e); simpl; auto; lia.
        -- unfold ws1. rewrite nth_upd. destruct (Nat.eqb_spec k kb).
           ++ eqk k. destruct (Nat.ltb_spec kb (length ws)); [|lia]. simpl andb. cbv iota.
              rewrite N.land_spec, wnot_spec, hi_mask_bit by lia.
              destruct (Nat.leb_spec b j), (Nat.ltb_spec j e), (N.leb_spec (N.of_nat ob) (N.of_nat o)); simpl; try lia; try now rewrite andb_false_r. now rewrite andb_true_r.
           ++ simpl. destruct (Nat.leb_spec b j), (Nat.ltb_spec j e); simpl; auto; lia.
        -- lia.
  - (* one word *)
    assert (ke = kb) by lia. subst ke.
    destruct bit; (rewrite wsetZ_nat by auto; eexists; split; [reflexivity|]; rewrite upd_length; split; [auto|]).
    + split; [apply small_upd; auto; apply lor_lt; [now apply small_nth|apply land_small, wshl_small]|].
      intros j. destruct (pos_split j) as (k & o & Ej & Lo & Ek & Eo).
      rewrite bitat_upd by lia. unfold bitat. rewrite Ek, Eo. destruct (Nat.eqb_spec k kb).
      * eqk k. rewrite N.lor_spec, N.land_spec, hi_mask_bit, lo_mask_bit by auto.
        destruct (Nat.leb_spec b j), (Nat.ltb_spec j e), (N.leb_spec (N.of_nat ob) (N.of_nat o)), (N.ltb_spec (N.of_nat o + (64 - (N.of_nat oe + 1))) 64); simpl; try lia; try now rewrite orb_true_r. all: now rewrite orb_false_r.
      * destruct (Nat.leb_spec b j), (Nat.ltb_spec j e); simpl; auto; lia.
    + split; [apply small_upd; auto; apply land_small; now apply small_nth|].
      intros j. destruct (pos_split j) as (k & o & Ej & Lo & Ek & Eo).
      rewrite bitat_upd by lia. unfold bitat. rewrite Ek, Eo. destruct (Nat.eqb_spec k kb).
      * eqk k. rewrite N.land_spec, wnot_spec, N.land_spec, hi_mask_bit, lo_mask_bit by (auto; lia).
        destruct (Nat.leb_spec b j), (Nat.ltb_spec j e), (N.leb_spec (N.of_nat ob) (N.of_nat o)), (N.ltb_spec (N.of_nat o + (64 - (N.of_nat oe + 1))) 64); simpl; try lia; try now rewrite andb_false_r. all: now rewrite andb_true_r.
      * destruct (Nat.leb_spec b j), (Nat.ltb_spec j e); simpl; auto; lia.
Qed.
