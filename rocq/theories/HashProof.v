(** Proofs about HashModel.v *)
From Coq Require Import List NArith ZArith Lia Bool Arith.
From Verif Require Import Base HashModel.
Import ListNotations.
Local Open Scope N_scope.

Definition row_good (w : nat) (row : list N * list N) : bool :=
  match row with
  | ([a; b; c], [a'; b'; c']) =>
      let m := 2 ^ N.of_nat w in ((a * a') mod m =? 1 mod m) && ((b * b') mod m =? 1 mod m) && ((c * c') mod m =? 1 mod m)
  | _ => false
  end.
Lemma table_good : forallb (fun w => match nth_error prime_table w with Some r => row_good w r | None => false end) (seq 0 64) = true.
Proof. vm_compute. reflexivity. Qed.

Lemma row_at : forall w k, w < 64 -> (k < 3)%nat -> exists row p q, lget prime_table (N.to_nat w) = Ok row /\ lget (fst row) k = Ok p /\ lget (snd row) k = Ok q /\
  (p * q) mod 2 ^ w = 1 mod 2 ^ w.
Proof.
  intros w k Hw Hk. pose proof table_good as T. rewrite forallb_forall in T. specialize (T (N.to_nat w)).
  assert (I : In (N.to_nat w) (seq 0 64)) by (apply in_seq; lia). specialize (T I). destruct (nth_error prime_table (N.to_nat w)) as [row|] eqn:E; [|discriminate].
  exists row. destruct row as [[|a [|b [|c [|]]]] [|a' [|b' [|c' [|]]]]]; try discriminate. unfold row_good in T. cbv zeta in T. rewrite N2Nat.id in T.
  apply andb_prop in T. destruct T as (T & T3). apply andb_prop in T. destruct T as (T1 & T2). apply N.eqb_eq in T1, T2, T3.
  destruct k as [|[|[|k]]]; [exists a, a'|exists b, b'|exists c, c'|lia]; (split; [now apply lget_Ok|]); (split; [reflexivity|]); (split; [reflexivity|]); assumption.
Qed.

Lemma mask_mod : forall w y, w < 64 -> N.land (y mod 2 ^ 64) (mh_mask w) = y mod 2 ^ w.
Proof.
  intros w y Hw. unfold mh_mask. destruct (N.ltb_spec w 64); [|lia].
  replace (2 ^ w - 1) with (N.ones w) by (rewrite N.ones_equiv; lia). rewrite N.land_ones.
  replace 64 with (w + (64 - w)) at 1 by lia. rewrite N.pow_add_r, N.mod_mul_r by (apply N.pow_nonzero; lia).
  rewrite N.mul_comm, N.mod_add by (apply N.pow_nonzero; lia). now rewrite N.mod_mod by (apply N.pow_nonzero; lia).
Qed.

Lemma mh_inverse : forall w k x, w < 64 -> (k < 3)%nat -> x < 2 ^ w ->
  (exists y, mh_hash w k x = Ok y /\ y < 2 ^ w /\ mh_ihash w k y = Ok x) /\ (exists y, mh_ihash w k x = Ok y /\ y < 2 ^ w /\ mh_hash w k y = Ok x).
Proof.
  intros w k x Hw Hk Hx. destruct (row_at w k Hw Hk) as (row & p & q & E & Ep & Eq & T).
  assert (Z : 2 ^ w <> 0) by (apply N.pow_nonzero; lia).
  unfold mh_hash, mh_ihash. rewrite E. cbn [bind]. rewrite Ep, Eq. cbn [bind]. rewrite !mask_mod by auto. split.
  - eexists. split; [reflexivity|]. split; [now apply N.mod_lt|]. rewrite mask_mod by auto. f_equal.
    rewrite N.mul_mod_idemp_l by auto. rewrite <- N.mul_assoc. rewrite <- N.mul_mod_idemp_r by auto. rewrite T. rewrite N.mul_mod_idemp_r by auto. rewrite N.mul_1_r. now apply N.mod_small.
  - eexists. split; [reflexivity|]. split; [now apply N.mod_lt|]. rewrite mask_mod by auto. f_equal.
    rewrite N.mul_mod_idemp_l by auto. rewrite <- N.mul_assoc, (N.mul_comm q p). rewrite <- N.mul_mod_idemp_r by auto. rewrite T. rewrite N.mul_mod_idemp_r by auto. rewrite N.mul_1_r. now apply N.mod_small.
Qed.

Lemma lt_pow2_shiftr : forall x n, x < 2 ^ n <-> N.shiftr x n = 0.
Proof.
  intros. rewrite N.shiftr_div_pow2. split; intros H.
  - now apply N.div_small.
  - apply N.div_small_iff; auto. apply N.pow_nonzero. lia.
Qed.

Lemma xs_inverse : forall w k x, w < 64 -> (k < 3)%nat -> x < 2 ^ w -> exists y, xs_hash w (N.of_nat k) x = Ok y /\ y < 2 ^ w /\ xs_hash w (N.of_nat k) y = Ok x.
Proof.
  intros w k x Hw Hk Hx. unfold xs_hash. cbv zeta. set (s := xs_shifts w + N.of_nat k).
  pose proof (N.div_mod (w + 1) 2 ltac:(lia)) as D. pose proof (N.mod_lt (w + 1) 2 ltac:(lia)) as Dl. fold (xs_shifts w) in D.
  destruct (N.ltb_spec s 64) as [Hs|Hs]; [|unfold s in Hs; lia]. eexists. split; [reflexivity|]. split.
  - apply lt_pow2_shiftr. rewrite N.shiftr_lxor, N.shiftr_shiftr, N.add_comm, <- N.shiftr_shiftr. apply lt_pow2_shiftr in Hx. rewrite Hx. now rewrite N.shiftr_0_l.
  - f_equal. rewrite N.shiftr_lxor, N.shiftr_shiftr. rewrite <- N.lxor_assoc, (N.lxor_assoc x), N.lxor_nilpotent, N.lxor_0_r.
    replace (s + s) with (w + (s + s - w)) by (unfold s; lia). rewrite <- N.shiftr_shiftr. apply lt_pow2_shiftr in Hx. rewrite Hx, N.shiftr_0_l. apply N.lxor_0_r.
Qed.

Lemma sm_round : forall w k x, w < 64 -> (k < 3)%nat -> x < 2 ^ w ->
  (exists y, sm_hash_ w k x = Ok y /\ y < 2 ^ w /\ sm_ihash_ w k y = Ok x) /\ (exists y, sm_ihash_ w k x = Ok y /\ y < 2 ^ w /\ sm_hash_ w k y = Ok x).
Proof.
  intros w k x Hw Hk Hx. unfold sm_hash_, sm_ihash_, xs_ihash. split.
  - destruct (xs_inverse w k x Hw Hk Hx) as (a & Ea & Ha & Ra). destruct (mh_inverse w k a Hw Hk Ha) as ((b & Eb & Hb & Rb) & _).
    rewrite Ea. cbn [bind]. exists b. split; auto. split; auto. rewrite Rb. exact Ra.
  - destruct (mh_inverse w k x Hw Hk Hx) as (_ & (a & Ea & Ha & Ra)). destruct (xs_inverse w k a Hw Hk Ha) as (b & Eb & Hb & Rb).
    rewrite Ea. cbn [bind]. exists b. split; auto. split; auto. rewrite Rb. exact Ra.
Qed.

Lemma sm_inverse : forall w x, w < 64 -> x < 2 ^ w ->
  (exists y, sm_hash w x = Ok y /\ y < 2 ^ w /\ sm_ihash w y = Ok x) /\ (exists y, sm_ihash w x = Ok y /\ y < 2 ^ w /\ sm_hash w y = Ok x).
Proof.
  intros w x Hw Hx. unfold sm_hash, sm_ihash. split.
  - destruct (sm_round w 0 x Hw ltac:(lia) Hx) as ((a & Ea & Ha & Ra) & _). destruct (sm_round w 1 a Hw ltac:(lia) Ha) as ((b & Eb & Hb & Rb) & _).
    destruct (sm_round w 2 b Hw ltac:(lia) Hb) as ((c & Ec & Hc & Rc) & _). rewrite Ea. cbn [bind]. rewrite Eb. cbn [bind]. rewrite Ec.
    exists c. split; auto. split; auto. rewrite Rc. cbn [bind]. rewrite Rb. cbn [bind]. exact Ra.
  - destruct (sm_round w 2 x Hw ltac:(lia) Hx) as (_ & (a & Ea & Ha & Ra)). destruct (sm_round w 1 a Hw ltac:(lia) Ha) as (_ & (b & Eb & Hb & Rb)).
    destruct (sm_round w 0 b Hw ltac:(lia) Hb) as (_ & (c & Ec & Hc & Rc)). rewrite Ea. cbn [bind]. rewrite Eb. cbn [bind]. rewrite Ec.
    exists c. split; auto. split; auto. rewrite Rc. cbn [bind]. rewrite Rb. cbn [bind]. exact Ra.
Qed.
