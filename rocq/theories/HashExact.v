(** SplitMixHash for every width and argument. *)
From Coq Require Import List NArith ZArith Lia Bool Arith.
From Verif Require Import Base Spec19 HashModel HashProof.
Import ListNotations.
Local Open Scope N_scope.

Lemma half_twice : forall w, w <= (w + 1) / 2 + (w + 1) / 2.
Proof. intros w. pose proof (N.div_mod (w + 1) 2 ltac:(lia)). pose proof (N.mod_lt (w + 1) 2 ltac:(lia)). lia. Qed.
Lemma xor_shift_lt : forall w h x, x < 2 ^ w -> xor_shift h x < 2 ^ w.
Proof. intros w h x Hx. unfold xor_shift. apply lt_pow2_shiftr. rewrite N.shiftr_lxor, N.shiftr_shiftr, N.add_comm, <- N.shiftr_shiftr. apply lt_pow2_shiftr in Hx. rewrite Hx. now rewrite N.shiftr_0_l. Qed.
Lemma xor_shift_inv : forall w h x, w <= h + h -> x < 2 ^ w -> xor_shift h (xor_shift h x) = x.
Proof.
  intros w h x Hh Hx. unfold xor_shift. rewrite N.shiftr_lxor, N.shiftr_shiftr. rewrite <- N.lxor_assoc, (N.lxor_assoc x), N.lxor_nilpotent, N.lxor_0_r.
  replace (h + h) with (w + (h + h - w)) by lia. rewrite <- N.shiftr_shiftr. apply lt_pow2_shiftr in Hx. rewrite Hx, N.shiftr_0_l. apply N.lxor_0_r.
Qed.
Lemma folded_lt : forall w x, folded w x < 2 ^ w.
Proof. intros. unfold folded. apply xor_shift_lt. apply N.mod_lt. apply N.pow_nonzero. lia. Qed.
Lemma folded_same : forall w x, x < 2 ^ w -> folded w x = x.
Proof. intros w x Hx. unfold folded. cbv zeta. rewrite N.mod_small by (now apply xor_shift_lt). apply (xor_shift_inv w); auto. apply half_twice. Qed.
Lemma mh_mod : forall w k x, w < 64 -> (k < 3)%nat -> mh_hash w k x = mh_hash w k (x mod 2 ^ w) /\ mh_ihash w k x = mh_ihash w k (x mod 2 ^ w).
Proof.
  intros w k x Hw Hk. destruct (row_at w k Hw Hk) as (row & p & q & E & Ep & Eq & _). unfold mh_hash, mh_ihash. rewrite E. cbn [bind]. rewrite Ep, Eq. cbn [bind].
  rewrite !mask_mod by auto. rewrite !(N.mul_mod_idemp_l x) by (apply N.pow_nonzero; lia). auto.
Qed.
Lemma xs_val : forall w k x, w < 64 -> (k < 3)%nat -> xs_hash w (N.of_nat k) x = Ok (xor_shift ((w + 1) / 2 + N.of_nat k) x).
Proof.
  intros w k x Hw Hk. unfold xs_hash. cbv zeta. fold (xs_shifts w). pose proof (N.div_mod (w + 1) 2 ltac:(lia)) as D. pose proof (N.mod_lt (w + 1) 2 ltac:(lia)) as Dl. fold (xs_shifts w) in D.
  destruct (N.ltb_spec (xs_shifts w + N.of_nat k) 64); [reflexivity|lia].
Qed.
Lemma hash_folded : forall w x, w < 64 -> sm_hash w x = sm_hash w (folded w x).
Proof.
  intros w x Hw. unfold sm_hash. assert (E : sm_hash_ w 0 x = sm_hash_ w 0 (folded w x)); [|now rewrite E].
  unfold sm_hash_. rewrite !xs_val by (auto; lia). cbn [bind]. rewrite !N.add_0_r. destruct (mh_mod w 0 (xor_shift ((w + 1) / 2) x) Hw ltac:(lia)) as (-> & _).
  unfold folded. cbv zeta. rewrite (xor_shift_inv w); [reflexivity|apply half_twice|]. apply N.mod_lt. apply N.pow_nonzero. lia.
Qed.
Lemma ihash_mod : forall w x, w < 64 -> sm_ihash w x = sm_ihash w (x mod 2 ^ w).
Proof.
  intros w x Hw. unfold sm_ihash. assert (E : sm_ihash_ w 2 x = sm_ihash_ w 2 (x mod 2 ^ w)); [|now rewrite E]. unfold sm_ihash_.
  destruct (mh_mod w 2 x Hw ltac:(lia)) as (_ & E). rewrite E at 1. reflexivity.
Qed.
Theorem hash_every : forall w x, w < 64 -> exists y, sm_hash w x = Ok y /\ y < 2 ^ w /\ sm_ihash w y = Ok (folded w x).
Proof. intros w x Hw. rewrite hash_folded by auto. apply (sm_inverse w (folded w x) Hw). apply folded_lt. Qed.
Theorem ihash_every : forall w x, w < 64 -> exists y, sm_ihash w x = Ok y /\ y < 2 ^ w /\ sm_hash w y = Ok (x mod 2 ^ w).
Proof. intros w x Hw. rewrite ihash_mod by auto. apply (sm_inverse w (x mod 2 ^ w) Hw). apply N.mod_lt. apply N.pow_nonzero. lia. Qed.
Theorem hash_collide : forall w x y, w < 64 -> (sm_hash w x = sm_hash w y <-> folded w x = folded w y).
Proof.
  intros w x y Hw. split; intros H.
  - destruct (hash_every w x Hw) as (a & Ea & _ & Ra). destruct (hash_every w y Hw) as (b & Eb & _ & Rb). rewrite Ea, Eb in H. injection H as ->. congruence.
  - rewrite (hash_folded w x), (hash_folded w y) by auto. now rewrite H.
Qed.
Theorem round_trip_iff : forall w x, w < 64 -> ((do y <- sm_hash w x; sm_ihash w y) = Ok x <-> x < 2 ^ w) /\ ((do y <- sm_ihash w x; sm_hash w y) = Ok x <-> x < 2 ^ w).
Proof.
  intros w x Hw. split.
  - destruct (hash_every w x Hw) as (a & -> & _ & Ra). cbn [bind]. rewrite Ra. split; intros H; [injection H as <-; apply folded_lt|now rewrite folded_same].
  - destruct (ihash_every w x Hw) as (a & -> & _ & Ra). cbn [bind]. rewrite Ra. split; intros H; [|now rewrite N.mod_small].
    assert (x mod 2 ^ w = x) as <- by congruence. apply N.mod_lt. apply N.pow_nonzero. lia.
Qed.
Theorem wide_UB : forall w x, 64 <= w -> sm_hash w x = UB /\ sm_ihash w x = UB.
Proof.
  intros w x Hw. assert (L : lget prime_table (N.to_nat w) = UB) by (apply lget_UB; change (length prime_table) with 64%nat; lia). split.
  - unfold sm_hash, sm_hash_, xs_hash. cbv zeta. destruct (_ <? _); cbn [bind]; [|reflexivity]. unfold mh_hash. rewrite L. reflexivity.
  - unfold sm_ihash, sm_ihash_, mh_ihash. rewrite L. reflexivity.
Qed.
