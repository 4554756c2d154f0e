(** Proofs about SuccinctModel.v: the rank directory *)
From Coq Require Import List NArith ZArith Lia Bool Arith.
From Coq Require Import ZifyBool ZifyNat ZifyN.
From Verif Require Import Base Spec BitUtilModel BitUtilProof BitUtilProof2 BitVectorModel BitVectorProof BitVectorProof2 SuccinctModel.
Import ListNotations.
Local Open Scope nat_scope.

(** ** Counting ones *)
Definition R (ws : list N) (n : nat) : nat := length (filter (bitat ws) (seq 0 n)).

Lemma filter_map_seq : forall (f : nat -> bool) a n, length (filter f (seq a n)) = length (filter (fun i => f (a + i)) (seq 0 n)).
Proof.
  intros. induction n; auto. rewrite !seq_S, !filter_app, !app_length, IHn. simpl. destruct (f (a + n)); auto.
Qed.

Lemma R_add : forall ws a b, R ws (a + b) = R ws a + length (filter (fun i => bitat ws (a + i)) (seq 0 b)).
Proof. intros. unfold R. rewrite seq_app, filter_app, app_length, filter_map_seq with (a := 0 + a). auto. Qed.

Lemma bitat_word : forall ws k o, o < 64 -> bitat ws (64 * k + o) = N.testbit (nth k ws 0%N) (N.of_nat o).
Proof.
  intros. unfold bitat. rewrite (Nat.mul_comm 64 k).
  rewrite Nat.div_add_l by lia. rewrite (Nat.div_small o 64), Nat.add_0_r by lia.
  rewrite (Nat.add_comm (k * 64)), Nat.mod_add by lia. now rewrite Nat.mod_small.
Qed.

Lemma R_word : forall ws k m, m <= 64 -> R ws (64 * k + m) = R ws (64 * k) + ones_below m (nth k ws 0%N).
Proof.
  intros. rewrite R_add. f_equal. unfold ones_below. f_equal. apply filter_ext_in. intros a Ha.
  apply in_seq in Ha. apply bitat_word. lia.
Qed.

Lemma R_mono : forall ws a b, a <= b -> R ws a <= R ws b.
Proof. intros. replace b with (a + (b - a)) by lia. rewrite R_add. lia. Qed.

Lemma R_le : forall ws a b, a <= b -> R ws b <= R ws a + (b - a).
Proof.
  intros. replace b with (a + (b - a)) at 1 by lia. rewrite R_add.
  assert (length (filter (fun i => bitat ws (a + i)) (seq 0 (b - a))) <= length (seq 0 (b - a))).
  { generalize (seq 0 (b - a)). induction l; simpl; auto. destruct (bitat ws (a + a0)); simpl; lia. }
  rewrite seq_length in H0. lia.
Qed.

Lemma R_0 : forall ws, R ws 0 = 0.
Proof. reflexivity. Qed.

Lemma R_S : forall ws n, R ws (S n) = R ws n + (if bitat ws n then 1 else 0).
Proof. intros. replace (S n) with (n + 1) by lia. rewrite R_add. simpl. rewrite Nat.add_0_r. destruct (bitat ws n); auto. Qed.

Lemma count_true_app : forall a b, count_true (a ++ b) = count_true a + count_true b.
Proof. intros. unfold count_true. now rewrite filter_app, app_length. Qed.

Lemma firstn_S_nth : forall A (l : list A) n d, n < length l -> firstn (S n) l = firstn n l ++ [nth n l d].
Proof.
  induction l; intros n d H; simpl in H; [lia|]. destruct n; [reflexivity|]. simpl. f_equal.
  rewrite <- (IHl n d) by lia. reflexivity.
Qed.

Lemma count_true_R : forall v l n, bv_rep v l -> n <= length l -> count_true (firstn n l) = R (bv_words v) n.
Proof.
  intros v l n (Hz & Hl & Hs & Hb). induction n; intros Hn; auto.
  rewrite (firstn_S_nth _ l n false) by lia. rewrite count_true_app, IHn, R_S, Hb by lia.
  unfold count_true. simpl. destruct (nth n l false); auto.
Qed.

(** ** Tips *)
Definition fieldr (w : N) (r : nat) : N := N.land (N.shiftr w (N.of_nat (63 - 9 * r))) width_mask9.

Lemma fieldr_bits : forall w r i, N.testbit (fieldr w r) i = (N.testbit w (i + N.of_nat (63 - 9 * r)) && (i <? 9)%N).
Proof.
  intros. unfold fieldr. rewrite N.land_spec, N.shiftr_spec'. f_equal.
  change width_mask9 with (N.ones 9). destruct (N.ltb_spec i 9); [now apply N.ones_spec_low|now apply N.ones_spec_high].
Qed.

Lemma fieldr_put : forall w sum r r0, r < 8 -> 1 <= r0 < 8 -> (sum < 2 ^ 9)%N ->
  fieldr w r0 = 0%N -> 
  fieldr (N.lor w (wshl sum (N.of_nat (63 - 9 * r0)))) r = if r =? r0 then sum else fieldr w r.
Proof.
  intros w sum r r0 Hr Hr0 Hs H0. apply N.bits_inj. intro i. rewrite fieldr_bits, N.lor_spec, wshl_spec.
  destruct (N.ltb_spec i 9).
  2: { rewrite andb_false_r. destruct (Nat.eqb_spec r r0).
       - symmetry. apply testbit_high with (w := 9%N); auto.
       - rewrite fieldr_bits. destruct (N.ltb_spec i 9); [lia|]. now rewrite andb_false_r. }
  rewrite andb_true_r. destruct (Nat.eqb_spec r r0).
  - subst r0. assert (Z0 : N.testbit w (i + N.of_nat (63 - 9 * r)) = false).
    { assert (N.testbit (fieldr w r) i = false) by (rewrite H0; apply N.bits_0).
      rewrite fieldr_bits in H1. destruct (N.ltb_spec i 9); [|lia]. now rewrite andb_true_r in H1. }
    rewrite Z0. cbn [orb]. replace (i + N.of_nat (63 - 9 * r) - N.of_nat (63 - 9 * r))%N with i by lia.
    destruct (N.ltb_spec (i + N.of_nat (63 - 9 * r)) 64), (N.leb_spec (N.of_nat (63 - 9 * r)) (i + N.of_nat (63 - 9 * r))); cbn [orb andb]; auto; lia.
  - rewrite fieldr_bits. destruct (N.ltb_spec i 9); [|lia]. rewrite andb_true_r.
    destruct (N.ltb_spec (i + N.of_nat (63 - 9 * r)) 64); cbn [orb andb]; [|now rewrite orb_false_r].
    destruct (N.leb_spec (N.of_nat (63 - 9 * r0)) (i + N.of_nat (63 - 9 * r))); cbn [orb andb]; [|now rewrite orb_false_r].
    rewrite (testbit_high sum 9); [now rewrite orb_false_r|auto|lia].
Qed.

Lemma fieldr_0 : forall r, fieldr 0 r = 0%N.
Proof. intros. unfold fieldr. rewrite N.shiftr_0_l. reflexivity. Qed.

Lemma put_tip_Ok : forall w sum i, put_tip w sum i = Ok (N.lor w (wshl sum (N.of_nat (63 - 9 * (i mod 8))))).
Proof. intros. unfold put_tip. rewrite shl64_Ok by lia. reflexivity. Qed.

(** invariant: entries of finished blocks, running sums of the current one *)
Definition P (ws : list N) (k : nat) : N := N.of_nat (R ws (64 * k)).

Lemma P_S : forall ws k, small ws -> P ws (k + 1) = (P ws k + popcnt64 (nth k ws 0))%N.
Proof.
  intros. unfold P. rewrite popcnt64_spec by now apply small_nth.
  replace (64 * (k + 1)) with (64 * k + 64) by lia. rewrite R_word by lia. lia.
Qed.

Lemma P_le : forall ws a b, a <= b -> (P ws a <= P ws b <= P ws a + N.of_nat (64 * (b - a)))%N.
Proof.
  intros. unfold P. pose proof (R_mono ws (64 * a) (64 * b)). pose proof (R_le ws (64 * a) (64 * b)). lia.
Qed.

Definition dir_ok (ws block : list N) (i : nat) : Prop :=   (* words before i are accounted for *)
  (forall q, q <= i / 8 -> nth (2 * q) block 0%N = P ws (8 * q)) /\
  (forall q r, r < 8 -> 8 * q + r <= i -> fieldr (nth (2 * q + 1) block 0%N) r = (P ws (8 * q + r) - P ws (8 * q))%N).

(** state before iteration i of the loop (i >= 1) *)
Definition blk_inv (ws : list N) (nb i : nat) (st : list N * N * N) : Prop :=
  let '(block, sum, sw) := st in
  let q0 := (i - 1) / 8 in
  length block = nb * 2 /\
  (forall q, q <= q0 -> nth (2 * q) block 0%N = P ws (8 * q)) /\
  (forall q r, r < 8 -> q < q0 -> fieldr (nth (2 * q + 1) block 0%N) r = (P ws (8 * q + r) - P ws (8 * q))%N) /\
  sum = (P ws i - P ws (8 * q0))%N /\
  (forall r, r < 8 -> fieldr sw r = if 8 * q0 + r <? i then (P ws (8 * q0 + r) - P ws (8 * q0))%N else 0%N).

Lemma div8 : forall i, exists q r, i = 8 * q + r /\ r < 8 /\ i / 8 = q /\ i mod 8 = r.
Proof. intros. exists (i / 8), (i mod 8). pose proof (Nat.div_mod i 8). pose proof (Nat.mod_upper_bound i 8). lia. Qed.

Lemma div8_unique : forall a q r, a = 8 * q + r -> r < 8 -> a / 8 = q.
Proof. intros. symmetry. apply Nat.div_unique with r; auto. Qed.

Lemma block_step_inv : forall ws nb i st, small ws -> 1 <= i -> i < length ws -> i / 8 < nb -> blk_inv ws nb i st ->
  exists st', block_step ws st i = Ok st' /\ blk_inv ws nb (i + 1) st'.
Proof.
  intros ws nb i [[block sum] sw] Hsm H1 Hw Hq I. unfold blk_inv in *. unfold block_step.
  destruct I as (L & B & T & S & F).
  destruct (div8 i) as (q & r & Ei & Hr & Eq & Er). rewrite Eq, Er in *.
  replace (i + 1 - 1) with i by lia. rewrite Eq.
  destruct (Nat.eqb_spec r 0).
  - assert (E1 : (i - 1) / 8 = q - 1) by (apply div8_unique with 7; lia). rewrite E1 in *.
    rewrite lset_Ok by lia. cbn [bind]. rewrite (lget_nth _ _ _ 0%N) by (rewrite upd_length; lia). cbn [bind].
    rewrite lset_Ok by (rewrite upd_length; lia). cbn [bind].
    rewrite (lget_nth _ ws i 0%N) by lia. cbn [bind]. eexists. split; [reflexivity|].
    assert (Hb2 : nth (q * 2 - 2) (upd block (q * 2 - 1) sw) 0%N = P ws (8 * (q - 1))).
    { rewrite nth_upd. destruct (Nat.eqb_spec (q * 2 - 2) (q * 2 - 1)); [lia|]. cbn [andb]. cbv iota.
      rewrite <- B by lia. f_equal. lia. }
    rewrite Hb2. pose proof (P_le ws (8 * (q - 1)) i). 
    split; [now rewrite !upd_length|]. split; [|split; [|split]].
    + intros q' Hq'. rewrite !nth_upd, upd_length. destruct (Nat.eqb_spec (2 * q') (q * 2)), (Nat.ltb_spec (q * 2) (length block)); cbn [andb]; cbv iota; try lia.
      * subst sum. replace q' with q by lia. replace (8 * q) with i by lia. lia.
      * destruct (Nat.eqb_spec (2 * q') (q * 2 - 1)); [lia|]. cbn [andb]. cbv iota. apply B. lia.
    + intros q' r' Hr' Hq'. rewrite !nth_upd, upd_length. destruct (Nat.eqb_spec (2 * q' + 1) (q * 2)); [lia|]. cbn [andb]. cbv iota.
      destruct (Nat.eqb_spec (2 * q' + 1) (q * 2 - 1)), (Nat.ltb_spec (q * 2 - 1) (length block)); cbn [andb]; cbv iota; try lia.
      * rewrite F by auto. replace q' with (q - 1) by lia. destruct (Nat.ltb_spec (8 * (q - 1) + r') i); auto; lia.
      * apply T; lia.
    + rewrite P_S by auto. replace (8 * q) with i by lia. lia.
    + intros r' Hr'. rewrite fieldr_0. destruct (Nat.ltb_spec (8 * q + r') (i + 1)); auto.
      replace r' with 0 by lia. rewrite Nat.add_0_r. lia.
  - assert (E1 : (i - 1) / 8 = q) by (apply div8_unique with (r - 1); lia). rewrite E1 in *.
    rewrite put_tip_Ok. rewrite Er. cbn [bind].
    rewrite (lget_nth _ ws i 0%N) by lia. cbn [bind]. eexists. split; [reflexivity|].
    split; auto. split; auto. split; auto. split.
    + subst sum. rewrite P_S by auto. pose proof (P_le ws (8 * q) i). lia.
    + intros r' Hr'.
      assert (Hsum : (sum < 2 ^ 9)%N).
      { subst sum. pose proof (P_le ws (8 * q) i). change (2 ^ 9)%N with 512%N. lia. }
      rewrite fieldr_put; auto; try lia.
      * destruct (Nat.eqb_spec r' r).
        -- subst r'. destruct (Nat.ltb_spec (8 * q + r) (i + 1)); [|lia]. subst sum. do 2 f_equal. lia.
        -- rewrite F by auto. destruct (Nat.ltb_spec (8 * q + r') i), (Nat.ltb_spec (8 * q + r') (i + 1)); auto; lia.
      * rewrite F by lia. destruct (Nat.ltb_spec (8 * q + r) i); auto; lia.
Qed.

Lemma block_loop : forall ws nb n st i, small ws -> 1 <= i -> i + n <= length ws -> (i + n - 1) / 8 < nb -> blk_inv ws nb i st ->
  exists st', foldM (block_step ws) (seq i n) st = Ok st' /\ blk_inv ws nb (i + n) st'.
Proof.
  intros ws nb n. induction n; intros st i Hs H1 Hl Hq I.
  - exists st. rewrite Nat.add_0_r. auto.
  - simpl. destruct (block_step_inv ws nb i st) as (st1 & E & I1); auto; try lia.
    rewrite E. cbn [bind]. replace (i + S n) with (i + 1 + n) in * by lia. replace (S i) with (i + 1) by lia. apply IHn; auto; lia.
Qed.

Lemma block_finish_ok : forall ws nb i st, 1 <= i -> i / 8 < nb -> blk_inv ws nb i st ->
  exists block, block_finish st i = Ok block /\ length block = nb * 2 /\ dir_ok ws block i.
Proof.
  intros ws nb i [[block sum] sw] H1 Hq I. unfold blk_inv in I. unfold block_finish.
  destruct I as (L & B & T & S & F).
  destruct (div8 i) as (q & r & Ei & Hr & Eq & Er). unfold dir_ok. rewrite Eq, Er in *.
  destruct (Nat.eqb_spec r 0); cbn [negb]; cbv iota.
  - assert (E1 : (i - 1) / 8 = q - 1) by (apply div8_unique with 7; lia). rewrite E1 in *.
    rewrite lset_Ok by lia. cbn [bind]. rewrite (lget_nth _ _ _ 0%N) by (rewrite upd_length; lia). cbn [bind].
    rewrite lset_Ok by (rewrite upd_length; lia). cbn [bind].
    rewrite lset_Ok by (rewrite !upd_length; lia). eexists. split; [reflexivity|]. split; [now rewrite !upd_length|].
    assert (Hb2 : nth (q * 2 - 2) (upd block (q * 2 - 1) sw) 0%N = P ws (8 * (q - 1))).
    { rewrite nth_upd. destruct (Nat.eqb_spec (q * 2 - 2) (q * 2 - 1)); [lia|]. cbn [andb]. cbv iota.
      rewrite <- B by lia. f_equal. lia. }
    rewrite Hb2. pose proof (P_le ws (8 * (q - 1)) i).
    split.
    + intros q' Hq'. rewrite !nth_upd, !upd_length. destruct (Nat.eqb_spec (2 * q') (q * 2 + 1)); [lia|]. cbn [andb]. cbv iota.
      destruct (Nat.eqb_spec (2 * q') (q * 2)), (Nat.ltb_spec (q * 2) (length block)); cbn [andb]; cbv iota; try lia.
      * subst sum. replace q' with q by lia. replace (8 * q) with i by lia. lia.
      * destruct (Nat.eqb_spec (2 * q') (q * 2 - 1)); [lia|]. cbn [andb]. cbv iota. apply B. lia.
    + intros q' r' Hr' Hq'. rewrite !nth_upd, !upd_length.
      destruct (Nat.eqb_spec (2 * q' + 1) (q * 2 + 1)), (Nat.ltb_spec (q * 2 + 1) (length block)); cbn [andb]; cbv iota; try lia.
      * rewrite fieldr_0. replace q' with q by lia. replace r' with 0 by lia. rewrite Nat.add_0_r. lia.
      * destruct (Nat.eqb_spec (2 * q' + 1) (q * 2)); [lia|]. cbn [andb]. cbv iota.
        destruct (Nat.eqb_spec (2 * q' + 1) (q * 2 - 1)), (Nat.ltb_spec (q * 2 - 1) (length block)); cbn [andb]; cbv iota; try lia.
        -- rewrite F by auto. replace q' with (q - 1) by lia. destruct (Nat.ltb_spec (8 * (q - 1) + r') i); auto; lia.
        -- apply T; lia.
  - assert (E1 : (i - 1) / 8 = q) by (apply div8_unique with (r - 1); lia). rewrite E1 in *.
    rewrite put_tip_Ok. rewrite Er. cbn [bind]. rewrite lset_Ok by lia.
    eexists. split; [reflexivity|]. split; [now rewrite upd_length|]. split.
    + intros q' Hq'. rewrite nth_upd. destruct (Nat.eqb_spec (2 * q') (q * 2 + 1)); [lia|]. cbn [andb]. cbv iota. now apply B.
    + intros q' r' Hr' Hq'. rewrite nth_upd. destruct (Nat.eqb_spec (2 * q' + 1) (q * 2 + 1)), (Nat.ltb_spec (q * 2 + 1) (length block)); cbn [andb]; cbv iota; try lia.
      * assert (Hsum : (sum < 2 ^ 9)%N).
        { subst sum. pose proof (P_le ws (8 * q) i). change (2 ^ 9)%N with 512%N. lia. }
        replace q' with q by lia. rewrite fieldr_put; auto; try lia.
        -- destruct (Nat.eqb_spec r' r).
           ++ subst r'. subst sum. do 2 f_equal. lia.
           ++ rewrite F by auto. destruct (Nat.ltb_spec (8 * q + r') i); auto; lia.
        -- rewrite F by lia. destruct (Nat.ltb_spec (8 * q + r) i); auto; lia.
      * apply T; lia.
Qed.

Lemma build_block_ok : forall v l, bv_rep v l -> l <> [] ->
  exists block, build_block v = Ok block /\ length block = (length l / 512 + 1) * 2 /\ dir_ok (bv_words v) block (length l / 64).
Proof.
  intros v l (Hz & Hl & Hs & Hb) Hn. unfold build_block. rewrite Hz.
  assert (H0 : 0 < length l) by (destruct l; simpl; [congruence|lia]).
  assert (Hlw : length l / 64 <= length (bv_words v)).
  { rewrite Hl. pose proof (gws_ge (length l)). apply Nat.div_le_upper_bound; lia. }
  pose proof (gws_pos (length l)).
  rewrite (lget_nth _ (bv_words v) 0 0%N) by lia. cbn [bind].
  set (n := length l / 64) in *. set (nb := length l / 512 + 1).
  assert (Hnb : n / 8 < nb).
  { subst n nb. rewrite Nat.div_div by lia. change (64 * 8) with 512. lia. }
  assert (Hd : (Nat.max 1 n) / 8 < nb).
  { destruct (Nat.le_gt_cases 1 n); [rewrite Nat.max_r by lia; auto|]. rewrite Nat.max_l by lia. simpl. subst nb. lia. }
  assert (I0 : blk_inv (bv_words v) nb 1 (repeat 0%N (nb * 2), popcnt64 (nth 0 (bv_words v) 0%N), 0%N)).
  { unfold blk_inv. change ((1 - 1) / 8) with 0. rewrite repeat_length. split; auto. split; [|split; [|split]].
    - intros q Hq. replace q with 0 by lia. rewrite nth_repeat. reflexivity.
    - intros; lia.
    - pose proof (P_S (bv_words v) 0 Hs). change (0 + 1) with 1 in H1. rewrite H1. change (P (bv_words v) 0) with 0%N. change (P (bv_words v) (8 * 0)) with 0%N. lia.
    - intros r Hr. rewrite fieldr_0. destruct (Nat.ltb_spec (8 * 0 + r) 1); auto. replace r with 0 by lia. reflexivity. }
  assert (LE : 1 + (n - 1) <= length (bv_words v)) by lia.
  assert (LD : (1 + (n - 1) - 1) / 8 < nb) by (apply Nat.le_lt_trans with ((Nat.max 1 n) / 8); auto; apply Nat.div_le_mono; lia).
  destruct (block_loop (bv_words v) nb (n - 1) _ 1 Hs (Nat.le_refl 1) LE LD I0) as (st & E & I).
  rewrite E. cbn [bind]. replace (1 + (n - 1)) with (Nat.max 1 n) in I by lia.
  destruct (block_finish_ok _ _ _ _ (Nat.le_max_l 1 n) Hd I) as (block & E2 & L2 & D1 & D2).
  exists block. split; auto. split; auto. split.
  - intros. apply D1. apply Nat.le_trans with (n / 8); auto. apply Nat.div_le_mono; lia.
  - intros. apply D2; auto. lia.
Qed.

(** ** rank *)
Lemma second_tip_ok : forall block idx, idx / 8 * 2 + 1 < length block ->
  second_tip block idx = Ok (fieldr (nth (2 * (idx / 8) + 1) block 0%N) (idx mod 8)).
Proof.
  intros. unfold second_tip. rewrite (lget_nth _ _ _ 0%N) by auto. cbn [bind].
  rewrite shr64_Ok by lia. cbn [bind]. unfold fieldr. do 4 f_equal. lia.
Qed.

Lemma cnt64_ok : forall w len, (w < 2 ^ 64)%N -> len < 64 -> cnt64 w (N.of_nat len) = Ok (N.of_nat (ones_below len w)).
Proof.
  intros. unfold cnt64. rewrite WidthMask_ones by lia. cbn [bind].
  rewrite popcnt64_spec by now apply land_small. do 2 f_equal.
  assert (E : ones_below 64 (N.land w (N.ones (N.of_nat len))) = ones_below len (N.land w (N.ones (N.of_nat len)))).
  { apply ones_below_high; [lia|]. rewrite N.land_ones. apply N.mod_upper_bound, N.pow_nonzero. lia. }
  rewrite E. apply ones_below_ext. intros. rewrite N.land_spec, N.ones_spec_low by auto. apply andb_true_r.
Qed.

Definition sbv_ok (s : sbv) (l : list bool) : Prop :=
  bv_rep (sb_bits s) l /\ length (sb_block s) = (length l / 512 + 1) * 2 /\
  dir_ok (bv_words (sb_bits s)) (sb_block s) (length l / 64).

Lemma div_512 : forall i, i / 512 = i / 64 / 8.
Proof. intros. rewrite Nat.div_div by lia. reflexivity. Qed.

Lemma rank_words : forall s l i ws', sbv_ok s l -> i <= length l -> i / 64 < length ws' -> small ws' ->
  (i / 64 < length (bv_words (sb_bits s)) -> nth (i / 64) ws' 0%N = nth (i / 64) (bv_words (sb_bits s)) 0%N) ->
  (length (bv_words (sb_bits s)) <= i / 64 -> i mod 64 = 0) ->
  sb_rank (SBV (BV (bv_size (sb_bits s)) ws') (sb_block s) (sb_tips s)) i = Ok (N.of_nat (count_true (firstn i l))).
Proof.
  intros s l i ws' (Hrep & Lb & D1 & D2) Hi Hw Hs' Hnth Hout.
  pose proof Hrep as (Hz & Hl & Hs & Hb).
  unfold sb_rank. cbn [sb_block sb_bits bv_words].
  assert (Hq : i / 512 <= length l / 512) by (apply Nat.div_le_mono; lia).
  assert (Hq64 : i / 64 <= length l / 64) by (apply Nat.div_le_mono; lia).
  rewrite (lget_nth _ _ _ 0%N) by lia. cbn [bind].
  rewrite second_tip_ok by (rewrite <- div_512; lia). cbn [bind].
  rewrite (lget_nth _ ws' _ 0%N) by auto. cbn [bind].
  pose proof (Nat.div_mod i 64) as Dm. pose proof (Nat.mod_upper_bound i 64) as Mu.
  rewrite cnt64_ok; [|now apply small_nth|lia]. cbn [bind]. f_equal.
  rewrite (Nat.mul_comm (i / 512) 2), D1 by (rewrite div_512; apply Nat.div_le_mono; lia).
  rewrite div_512. set (k := i / 64) in *. 
  destruct (div8 k) as (q & r & Ek & Hr & -> & ->). rewrite D2 by lia.
  rewrite (count_true_R (sb_bits s)) by auto.
  pose proof (P_le (bv_words (sb_bits s)) (8 * q) (8 * q + r)).
  replace i with (64 * k + i mod 64) at 2 by lia. rewrite R_word by lia.
  rewrite <- Ek in *. unfold P in *.
  destruct (Nat.lt_ge_cases k (length (bv_words (sb_bits s)))) as [K|K].
  - rewrite Hnth by auto. lia.
  - rewrite (Hout K). change (ones_below 0 (nth k ws' 0%N)) with 0. change (ones_below 0 (nth k (bv_words (sb_bits s)) 0%N)) with 0. lia.
Qed.

Lemma rank_ok : forall s l i, sbv_ok s l -> i <= length l -> (i < length l \/ length l mod 64 <> 0 \/ l = []) ->
  sb_rank s i = Ok (N.of_nat (count_true (firstn i l))).
Proof.
  intros s l i H Hi Hc. pose proof H as ((Hz & Hl & Hs & Hb) & _).
  assert (E : s = SBV (BV (bv_size (sb_bits s)) (bv_words (sb_bits s))) (sb_block s) (sb_tips s)) by (destruct s as [[]]; auto).
  assert (K : i / 64 < length (bv_words (sb_bits s))).
  { rewrite Hl. apply div64_lt. unfold get_word_size.
    pose proof (Nat.div_mod (length l) 64). pose proof (Nat.mod_upper_bound (length l) 64).
    destruct (Nat.eqb_spec (length l) 0); [lia|].
    pose proof (Nat.div_mod (length l - 1) 64). pose proof (Nat.mod_upper_bound (length l - 1) 64).
    destruct Hc as [Hc|[Hc|Hc]]; [lia| |subst; simpl in *; lia]. 
    assert (64 * (length l / 64) < length l) by lia.
    destruct (Nat.eq_dec i (length l)); [|lia].
    assert (64 * ((length l - 1) / 64 + 1) <> length l).
    { intro Q. apply Hc. rewrite <- Q. rewrite Nat.mul_comm. apply Nat.mod_mul. lia. }
    lia. }
  rewrite E at 1. apply rank_words; auto. lia.
Qed.

Lemma rank_full_UB : forall s l, sbv_ok s l -> l <> [] -> length l mod 64 = 0 -> sb_rank s (length l) = UB.
Proof.
  intros s l (Hrep & Lb & D1 & D2) Hn Hm. pose proof Hrep as (Hz & Hl & Hs & Hb). unfold sb_rank.
  assert (0 < length l) by (destruct l; simpl; [congruence|lia]).
  rewrite (lget_nth _ _ _ 0%N) by lia. cbn [bind].
  rewrite second_tip_ok by (rewrite <- div_512; lia). cbn [bind].
  assert (X : lget (bv_words (sb_bits s)) (length l / 64) = UB).
  { apply lget_UB. rewrite Hl. unfold get_word_size. destruct (Nat.eqb_spec (length l) 0); [lia|].
    pose proof (Nat.div_mod (length l) 64). pose proof (Nat.div_mod (length l - 1) 64). pose proof (Nat.mod_upper_bound (length l - 1) 64).
    assert ((length l - 1) / 64 < length l / 64); [|lia]. apply Nat.div_lt_upper_bound; lia. }
  rewrite X. reflexivity.
Qed.

Lemma build_ok : forall v l us s, bv_rep v l -> sb_build us v = Ok s -> sb_bits s = v /\ sbv_ok s l.
Proof.
  intros v l us s Hrep E. pose proof Hrep as (Hz & Hl & Hs & Hb). unfold sb_build in E. rewrite Hz in E.
  destruct (Nat.eqb_spec (length l) 0).
  - injection E as <-. split; auto. split; auto. cbn [sb_block sb_bits]. rewrite e. split; auto. split.
    + intros q Hq. simpl in Hq. replace q with 0 by lia. reflexivity.
    + intros q r Hr Hqr. simpl in Hqr. replace q with 0 by lia. replace r with 0 by lia. simpl.
      rewrite fieldr_0. reflexivity.
  - destruct (build_block_ok v l Hrep) as (block & E1 & L1 & D1); [intro; subst; simpl in *; lia|].
    rewrite E1 in E. cbn [bind] in E. apply bind_Ok_inv in E. destruct E as (tips & E2 & E3). injection E3 as <-.
    split; auto. split; auto.
Qed.
