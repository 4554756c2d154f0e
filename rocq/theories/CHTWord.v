(** Words of the table, and the unrolled reading of a list as a circular array *)
From Coq Require Import List NArith ZArith Arith Bool Lia.
From Verif Require Import Base BitUtilModel FitVectorModel FitVectorProof HashModel CHTModel.
Import ListNotations.
Local Open Scope nat_scope.

Definition ob (w : N) : bool := N.testbit w 0.
Definition cb (w : N) : bool := N.testbit w 1.
Definition sb (w : N) : bool := N.testbit w 2.
Definition db (w : N) : bool := N.testbit w 3.
Definition qw (w : N) : N := N.shiftr w 4.

Lemma land_pow2_test : forall w k, negb (N.land w (2 ^ k) =? 0)%N = N.testbit w k.
Proof.
  intros w k. destruct (N.testbit w k) eqn:E.
  - apply negb_true_iff, N.eqb_neq. intros Z. assert (T : N.testbit (N.land w (2 ^ k)) k = true) by (rewrite N.land_spec, E, N.pow2_bits_true; auto). rewrite Z, N.bits_0 in T. discriminate.
  - apply negb_false_iff, N.eqb_eq. apply N.bits_inj. intros n. rewrite N.land_spec, N.bits_0. destruct (N.eq_dec n k) as [->|D]; [now rewrite E|].
    rewrite N.pow2_bits_false by auto. apply andb_false_r.
Qed.
Lemma is_occupied_eq : forall w, is_occupied w = ob w.
Proof. intros. exact (land_pow2_test w 0). Qed.
Lemma is_continuation_eq : forall w, is_continuation w = cb w.
Proof. intros. exact (land_pow2_test w 1). Qed.
Lemma is_shifted_eq : forall w, is_shifted w = sb w.
Proof. intros. exact (land_pow2_test w 2). Qed.
Lemma is_deleted_eq : forall w, is_deleted w = db w.
Proof. intros. exact (land_pow2_test w 3). Qed.
Lemma is_null_eq : forall w, is_null w = negb (ob w || cb w || sb w || db w).
Proof.
  intros w. unfold is_null. destruct (ob w || cb w || sb w || db w) eqn:E; simpl.
  - apply N.eqb_neq. intros Z. change 16%N with (2 ^ 4)%N in Z.
    assert (T : forall k, (k < 4)%N -> N.testbit w k = false) by (intros k Hk; rewrite <- (N.mod_pow2_bits_low w 4 k Hk), Z; apply N.bits_0).
    unfold ob, cb, sb, db in E. rewrite !T in E by (vm_compute; reflexivity). discriminate.
  - apply N.eqb_eq. change 16%N with (2 ^ 4)%N. apply N.bits_inj. intros k. rewrite N.bits_0. destruct (N.lt_ge_cases k 4) as [L|G].
    + rewrite N.mod_pow2_bits_low by auto. unfold ob, cb, sb, db in E. apply orb_false_iff in E. destruct E as (E & E3). apply orb_false_iff in E. destruct E as (E & E2). apply orb_false_iff in E. destruct E as (E0 & E1).
      assert (k = 0 \/ k = 1 \/ k = 2 \/ k = 3)%N as [->|[->|[->| ->]]] by lia; auto.
    + now rewrite N.mod_pow2_bits_high.
Qed.

(** quo_mask *)
Lemma mask_val : forall n, (N.pred (2 ^ n) = N.ones n)%N.
Proof. intros. unfold N.ones. now rewrite N.shiftl_1_l. Qed.
Lemma mask_sub : forall n, (n < 64)%N -> wsub (2 ^ n) 1 = N.ones n.
Proof.
  intros n Hn. unfold wsub, N.ones. rewrite N.shiftl_1_l. pose proof (N.pow_nonzero 2 n ltac:(lia)). pose proof (N.pow_lt_mono_r 2 n 64 ltac:(lia) Hn) as P. pose proof (N.ones_equiv n) as OE.
  change (2 ^ 64)%N with 18446744073709551616%N in *. change (1 mod 18446744073709551616)%N with 1%N.
  replace (2 ^ n + 18446744073709551616 - 1)%N with (N.pred (2 ^ n) + 1 * 18446744073709551616)%N by lia. rewrite N.mod_add by lia. apply N.mod_small. lia.
Qed.
Lemma quo_mask_ok : forall t, ch_quo_bits t <= 59 -> quo_mask t = Ok (N.shiftl (N.ones (N.of_nat (ch_quo_bits t))) 4).
Proof.
  intros t Hq. unfold quo_mask, shl64. rewrite (proj2 (N.ltb_lt _ _)) by lia. cbn [bind].
  assert (P : (2 ^ N.of_nat (ch_quo_bits t) < 2 ^ 60)%N) by (apply N.pow_lt_mono_r; lia).
  unfold wshl, wrap64. rewrite N.shiftl_1_l. rewrite (N.mod_small (2 ^ _)) by (change (2 ^ 64)%N with 18446744073709551616%N; change (2 ^ 60)%N with 1152921504606846976%N in P; lia).
  rewrite mask_sub by lia. change (4 <? 64)%N with true. cbv iota. f_equal. apply N.mod_small.
  rewrite N.shiftl_mul_pow2. rewrite N.ones_equiv. change (2 ^ 4)%N with 16%N. change (2 ^ 64)%N with 18446744073709551616%N. change (2 ^ 60)%N with 1152921504606846976%N in P. lia.
Qed.
Lemma bits_small : forall w n, (w < 2 ^ n)%N <-> forall k, (n <= k)%N -> N.testbit w k = false.
Proof.
  intros w n. split.
  - intros Hw k Hk. rewrite <- (N.mod_small w (2 ^ n)) by auto. apply N.mod_pow2_bits_high. auto.
  - intros Hb. destruct (N.lt_ge_cases w (2 ^ n)); auto. exfalso.
    assert (E : w = (w mod 2 ^ n)%N).
    { apply N.bits_inj. intros k. destruct (N.lt_ge_cases k n); [now rewrite N.mod_pow2_bits_low|]. rewrite N.mod_pow2_bits_high by auto. auto. }
    pose proof (N.mod_lt w (2 ^ n) ltac:(apply N.pow_nonzero; lia)). lia.
Qed.
Lemma mask_bits : forall q k, N.testbit (N.shiftl (N.ones (N.of_nat q)) 4) k = ((4 <=? k)%N && (k <? N.of_nat q + 4)%N).
Proof.
  intros q k. destruct (N.lt_ge_cases k 4).
  - rewrite N.shiftl_spec_low by auto. rewrite (proj2 (N.leb_gt _ _)) by auto. reflexivity.
  - rewrite N.shiftl_spec_high' by auto. rewrite (proj2 (N.leb_le _ _)) by auto. simpl andb. destruct (N.ltb_spec k (N.of_nat q + 4)).
    + apply N.ones_spec_low. lia.
    + apply N.ones_spec_high. lia.
Qed.
Lemma quotient_ok : forall t w, ch_quo_bits t <= 59 -> (w < 2 ^ N.of_nat (ch_quo_bits t + 4))%N -> quotient t w = Ok (qw w).
Proof.
  intros t w Hq Hw. unfold quotient. rewrite quo_mask_ok by auto. cbn [bind]. f_equal. unfold qw. apply N.bits_inj. intros k. rewrite !N.shiftr_spec', N.land_spec, mask_bits.
  destruct (N.ltb_spec (k + 4) (N.of_nat (ch_quo_bits t) + 4)).
  - rewrite (proj2 (N.leb_le _ _)) by lia. apply andb_true_r.
  - rewrite andb_false_r, andb_false_r. symmetry. apply (proj1 (bits_small _ _) Hw). lia.
Qed.

(** the words written *)
Ltac flagbits := unfold ob, cb, sb, db; rewrite ?N.lor_spec, ?N.land_spec, ?mask_bits;
  repeat match goal with |- context [N.testbit ?c ?k] => match c with Npos _ => let v := eval vm_compute in (N.testbit c k) in change (N.testbit c k) with v end end.
Definition w_shift (q : nat) (wj wp : N) : N :=
  N.lor (N.lor (N.land wj (N.lor kOccupiedMask kDeletedMask)) (N.land wp (N.lor (N.shiftl (N.ones (N.of_nat q)) 4) kContinuationMask))) kShiftedMask.
Lemma small_bit_hi : forall c k, (c < 16)%N -> (4 <= k)%N -> N.testbit c k = false.
Proof. intros c k Hc Hk. apply (proj1 (bits_small c 4)); auto. Qed.
Lemma w_shift_spec : forall q wj wp, (wp < 2 ^ N.of_nat (q + 4))%N ->
  (w_shift q wj wp < 2 ^ N.of_nat (q + 4))%N /\ ob (w_shift q wj wp) = ob wj /\ cb (w_shift q wj wp) = cb wp /\ sb (w_shift q wj wp) = true /\
  db (w_shift q wj wp) = db wj /\ qw (w_shift q wj wp) = qw wp.
Proof.
  intros q wj wp Hw. unfold w_shift, kOccupiedMask, kDeletedMask, kContinuationMask, kShiftedMask.
  assert (Hi : forall k, (4 <= k)%N -> N.testbit (N.lor (N.lor (N.land wj (N.lor 1 8)) (N.land wp (N.lor (N.shiftl (N.ones (N.of_nat q)) 4) 2))) 4) k = N.testbit wp k).
  { intros k Hk. rewrite !N.lor_spec, !N.land_spec, !N.lor_spec, mask_bits.
    rewrite (small_bit_hi 1), (small_bit_hi 8), (small_bit_hi 2), (small_bit_hi 4) by (auto; lia). rewrite (proj2 (N.leb_le _ _)) by auto. cbn [orb andb]. rewrite andb_false_r, !orb_false_r. cbn [orb].
    destruct (N.ltb_spec k (N.of_nat q + 4)); [now rewrite andb_true_r|]. rewrite andb_false_r. symmetry. apply (proj1 (bits_small _ _) Hw). lia. }
  split; [apply bits_small; intros k Hk; rewrite Hi by lia; apply (proj1 (bits_small _ _) Hw); auto|].
  unfold ob, cb, sb, db. rewrite !N.lor_spec, !N.land_spec, !N.lor_spec, !mask_bits.
  split; [now rewrite andb_true_r, andb_false_r, !orb_false_r|]. split; [now rewrite andb_false_r, andb_true_r, orb_false_r|]. split; [apply orb_true_r|].
  split; [now rewrite andb_true_r, andb_false_r, !orb_false_r|]. unfold qw. apply N.bits_inj. intros k. rewrite !N.shiftr_spec'. apply Hi. lia.
Qed.
Lemma w_occ_spec : forall w q, (w < 2 ^ N.of_nat (q + 4))%N ->
  (N.lor w kOccupiedMask < 2 ^ N.of_nat (q + 4))%N /\ ob (N.lor w kOccupiedMask) = true /\ cb (N.lor w kOccupiedMask) = cb w /\ sb (N.lor w kOccupiedMask) = sb w /\
  db (N.lor w kOccupiedMask) = db w /\ qw (N.lor w kOccupiedMask) = qw w.
Proof.
  intros w q Hw. unfold kOccupiedMask.
  split; [apply bits_small; intros k Hk; rewrite N.lor_spec, (small_bit_hi 1), orb_false_r by (auto; lia); apply (proj1 (bits_small _ _) Hw); auto|].
  unfold ob, cb, sb, db. rewrite !N.lor_spec. split; [apply orb_true_r|]. split; [apply orb_false_r|]. split; [apply orb_false_r|]. split; [apply orb_false_r|].
  unfold qw. apply N.bits_inj. intros k. rewrite !N.shiftr_spec', N.lor_spec, (small_bit_hi 1) by (auto; lia). apply orb_false_r.
Qed.
(** the word put into the insertion slot; [fl] is some of the continuation and shifted flags *)
Lemma w_new_spec : forall w q quo fl, (quo < 2 ^ N.of_nat q)%N -> (fl < 8)%N -> ob fl = false ->
  let r := N.lor (N.lor (N.land w kOccupiedMask) (N.shiftl quo 4)) fl in
  (r < 2 ^ N.of_nat (q + 4))%N /\ ob r = ob w /\ cb r = cb fl /\ sb r = sb fl /\ db r = false /\ qw r = quo.
Proof.
  intros w q quo fl Hq Hf Of r. unfold r, kOccupiedMask.
  assert (Hi : forall k, (4 <= k)%N -> N.testbit (N.lor (N.lor (N.land w 1) (N.shiftl quo 4)) fl) k = N.testbit quo (k - 4)).
  { intros k Hk. rewrite !N.lor_spec, N.land_spec, N.shiftl_spec_high', (small_bit_hi 1), (small_bit_hi fl), andb_false_r, orb_false_r by (auto; lia). reflexivity. }
  assert (Lo : forall k, (k < 4)%N -> N.testbit (N.lor (N.lor (N.land w 1) (N.shiftl quo 4)) fl) k = (N.testbit w k && N.testbit 1 k) || N.testbit fl k).
  { intros k Hk. rewrite !N.lor_spec, N.land_spec, N.shiftl_spec_low by auto. now rewrite orb_false_r. }
  split; [apply bits_small; intros k Hk; rewrite Hi by lia; apply (proj1 (bits_small _ _) Hq); lia|].
  unfold ob, cb, sb, db in *. rewrite !Lo by (vm_compute; reflexivity).
  split; [now rewrite Of, andb_true_r, orb_false_r|]. split; [now rewrite andb_false_r|]. split; [now rewrite andb_false_r|].
  split; [rewrite andb_false_r; apply (proj1 (bits_small fl 3) Hf); lia|]. unfold qw. apply N.bits_inj. intros k. rewrite N.shiftr_spec', Hi by lia. f_equal. lia.
Qed.

(** setting and clearing the Deleted flag *)
Lemma w_del_spec : forall w q, (w < 2 ^ N.of_nat (q + 4))%N ->
  (N.lor w kDeletedMask < 2 ^ N.of_nat (q + 4))%N /\ ob (N.lor w kDeletedMask) = ob w /\ cb (N.lor w kDeletedMask) = cb w /\ sb (N.lor w kDeletedMask) = sb w /\
  db (N.lor w kDeletedMask) = true /\ qw (N.lor w kDeletedMask) = qw w.
Proof.
  intros w q Hw. change kDeletedMask with (2 ^ 3)%N. split.
  - apply bits_small. intros k Hk. rewrite N.lor_spec. rewrite (proj1 (bits_small _ _) Hw k Hk). rewrite N.pow2_bits_eqb. apply N.eqb_neq. lia.
  - unfold ob, cb, sb, db, qw. rewrite !N.lor_spec, !N.pow2_bits_eqb. cbn [N.eqb Pos.eqb]. rewrite !orb_false_r, orb_true_r. do 4 (split; [reflexivity|]).
    rewrite N.shiftr_lor. change (N.shiftr (2 ^ 3) 4) with 0%N. apply N.lor_0_r.
Qed.
Lemma w_undel_spec : forall w q, q <= 59 -> (w < 2 ^ N.of_nat (q + 4))%N ->
  (N.land w (wnot kDeletedMask) < 2 ^ N.of_nat (q + 4))%N /\ ob (N.land w (wnot kDeletedMask)) = ob w /\ cb (N.land w (wnot kDeletedMask)) = cb w /\ sb (N.land w (wnot kDeletedMask)) = sb w /\
  db (N.land w (wnot kDeletedMask)) = false /\ qw (N.land w (wnot kDeletedMask)) = qw w.
Proof.
  intros w q Hq Hw.
  assert (T : forall k, N.testbit (N.land w (wnot kDeletedMask)) k = N.testbit w k && negb (k =? 3)%N).
  { intros k. rewrite N.land_spec. destruct (N.lt_ge_cases k 64) as [L|G].
    - f_equal. change (wnot kDeletedMask) with (N.lxor (N.ones 64) (2 ^ 3)). rewrite N.lxor_spec, N.ones_spec_low, N.pow2_bits_eqb by auto. rewrite (N.eqb_sym 3). destruct (k =? 3)%N; reflexivity.
    - rewrite (proj1 (bits_small _ _) Hw k) by lia. reflexivity. }
  split; [apply bits_small; intros k Hk; rewrite T, (proj1 (bits_small _ _) Hw k Hk); reflexivity|].
  unfold ob, cb, sb, db, qw. rewrite !T. cbn [N.eqb Pos.eqb negb]. rewrite !andb_true_r, andb_false_r. do 4 (split; [reflexivity|]).
  apply N.bits_inj. intros k. rewrite !N.shiftr_spec', T. rewrite (proj2 (N.eqb_neq _ _)) by lia. apply andb_true_r.
Qed.

(** ** Circular indices *)
Definition idx (B : nat) (z : Z) : nat := Z.to_nat (z mod Z.of_nat B).
Section Idx.
Variable B : nat.
Hypothesis HB : 1 <= B.
Lemma idx_lt : forall z, idx B z < B.
Proof. intros z. unfold idx. pose proof (Z.mod_pos_bound z (Z.of_nat B) ltac:(lia)). lia. Qed.
Lemma idx_of_nat : forall n, n < B -> idx B (Z.of_nat n) = n.
Proof. intros n Hn. unfold idx. rewrite Z.mod_small by lia. lia. Qed.
Lemma idx_per : forall z m, idx B (z + m * Z.of_nat B) = idx B z.
Proof. intros. unfold idx. rewrite Z.mod_add by lia. reflexivity. Qed.
Lemma idx_eq : forall z y, idx B z = idx B y <-> ((z - y) mod Z.of_nat B = 0)%Z.
Proof.
  intros z y. unfold idx. pose proof (Z.mod_pos_bound z (Z.of_nat B) ltac:(lia)). pose proof (Z.mod_pos_bound y (Z.of_nat B) ltac:(lia)).
  pose proof (Z.div_mod z (Z.of_nat B) ltac:(lia)). pose proof (Z.div_mod y (Z.of_nat B) ltac:(lia)). split; intros E.
  - assert (Em : (z mod Z.of_nat B = y mod Z.of_nat B)%Z) by lia. replace (z - y)%Z with (0 + (z / Z.of_nat B - y / Z.of_nat B) * Z.of_nat B)%Z by lia.
    rewrite Z.mod_add by lia. apply Z.mod_0_l. lia.
  - f_equal. pose proof (Z.div_mod (z - y) (Z.of_nat B) ltac:(lia)) as D. rewrite E in D. replace z with (y + (z - y) / Z.of_nat B * Z.of_nat B)%Z by lia. rewrite Z.mod_add by lia. reflexivity.
Qed.
Lemma idx_near : forall z y, idx B z = idx B y -> (- Z.of_nat B < z - y < Z.of_nat B)%Z -> z = y.
Proof.
  intros z y E Hn. apply idx_eq in E. pose proof (Z.div_mod (z - y) (Z.of_nat B) ltac:(lia)) as D. rewrite E in D.
  assert ((z - y) / Z.of_nat B = 0)%Z. { assert (-1 < (z - y) / Z.of_nat B)%Z by (apply Z.nle_gt; intros Q; nia). assert ((z - y) / Z.of_nat B < 1)%Z by (apply Z.nle_gt; intros Q; nia). lia. }
  lia.
Qed.
Lemma idx_succ : forall z t, ch_bucket t = B -> cht_succ t (idx B z) = idx B (z + 1).
Proof.
  intros z t Et. unfold cht_succ. rewrite Et. pose proof (idx_lt z). pose proof (Z.mod_pos_bound z (Z.of_nat B) ltac:(lia)). pose proof (Z.div_mod z (Z.of_nat B) ltac:(lia)) as D.
  destruct (Nat.eqb_spec (idx B z + 1) B) as [E|E]; unfold idx in *.
  - replace (z + 1)%Z with (0 + (z / Z.of_nat B + 1) * Z.of_nat B)%Z by nia. rewrite Z.mod_add by lia. now rewrite Z.mod_0_l by lia.
  - replace (z + 1)%Z with (z mod Z.of_nat B + 1 + (z / Z.of_nat B) * Z.of_nat B)%Z by nia. rewrite Z.mod_add by lia. rewrite (Z.mod_small (_ + 1)) by lia. lia.
Qed.
Lemma idx_pred : forall z t, ch_bucket t = B -> cht_pred t (idx B z) = idx B (z - 1).
Proof.
  intros z t Et. unfold cht_pred. rewrite Et. pose proof (idx_lt z). pose proof (Z.mod_pos_bound z (Z.of_nat B) ltac:(lia)). pose proof (Z.div_mod z (Z.of_nat B) ltac:(lia)) as D.
  destruct (Nat.eqb_spec (idx B z) 0) as [E|E]; unfold idx in *.
  - replace (z - 1)%Z with (Z.of_nat B - 1 + (z / Z.of_nat B - 1) * Z.of_nat B)%Z by nia. rewrite Z.mod_add by lia. rewrite (Z.mod_small (_ - 1)) by lia. lia.
  - replace (z - 1)%Z with (z mod Z.of_nat B - 1 + (z / Z.of_nat B) * Z.of_nat B)%Z by nia. rewrite Z.mod_add by lia. rewrite (Z.mod_small (_ - 1)) by lia. lia.
Qed.
End Idx.

(** the list read around the circle *)
Definition wd (l : list N) (z : Z) : N := nth (idx (length l) z) l 0%N.
Lemma wd_per : forall l z m, 1 <= length l -> wd l (z + m * Z.of_nat (length l)) = wd l z.
Proof. intros. unfold wd. now rewrite idx_per. Qed.
Lemma wd_upd : forall l i x z, 1 <= length l -> i < length l -> wd (upd l i x) z = if idx (length l) z =? i then x else wd l z.
Proof.
  intros l i x z Hl Hi. unfold wd. rewrite upd_length. rewrite nth_upd. rewrite (proj2 (Nat.ltb_lt _ _)) by auto. now rewrite andb_true_r.
Qed.
