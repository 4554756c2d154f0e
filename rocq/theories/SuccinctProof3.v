(** SuccinctBitVector over histories of the underlying BitVector *)
From Coq Require Import List NArith ZArith Lia Bool Arith.
From Verif Require Import Base Spec BitUtilModel BitUtilProof BitUtilProof2 XorMapProof BitVectorModel BitVectorProof BitVectorProof2 SuccinctModel SuccinctProof SuccinctProof2.
Import ListNotations.
Local Open Scope nat_scope.

Lemma tips_total : forall block nb n j st, length block = nb * 2 -> j + n <= nb ->
  exists st', foldM (tips_step block) (seq j n) st = Ok st'.
Proof.
  intros block nb n. induction n; intros j [tips thr] L H; [eexists; reflexivity|].
  cbn [seq foldM]. unfold tips_step at 1. rewrite (lget_nth _ _ _ 0%N) by lia. cbn [bind].
  destruct (thr <=? _)%N; cbn [bind]; apply IHn; auto; lia.
Qed.

Lemma sb_build_total : forall v l us, bv_rep v l -> exists s, sb_build us v = Ok s /\ sb_bits s = v /\ sbv_ok s l.
Proof.
  intros v l us Hrep.
  assert (exists s, sb_build us v = Ok s) as (s & E).
  { pose proof Hrep as (Hz & Hl & Hs & Hb). unfold sb_build. rewrite Hz. destruct (Nat.eqb_spec (length l) 0); [eexists; reflexivity|].
    destruct (build_block_ok v l Hrep) as (block & E1 & L1 & D1 & D2); [intro; subst; simpl in *; lia|].
    rewrite E1. cbn [bind]. destruct us; [|eexists; reflexivity]. unfold build_tips.
    destruct (tips_total block (length l / 512 + 1) (length l / 512 + 1 - 1) 1 ([0%N], 512%N) L1) as (st & ->); [lia|].
    eexists; reflexivity. }
  exists s. split; auto. now apply (build_ok v l us s).
Qed.

Definition count_false (l : list bool) : nat := length (filter negb l).

Lemma count_split : forall l, count_true l + count_false l = length l.
Proof. unfold count_true, count_false. induction l as [|[] l IH]; simpl; auto; lia. Qed.

Lemma rank_history : forall us v l, bv_reach v l -> exists s, sb_build us v = Ok s /\ sb_size s = length l /\
  (forall i b, nth_error l i = Some b -> sb_get s i = Ok b) /\
  forall i, i <= length l -> i < length l \/ length l mod 64 <> 0 \/ l = [] ->
    sb_rank s i = Ok (N.of_nat (count_true (firstn i l))) /\
    ((N.of_nat (length l) < 2 ^ 64)%N -> sb_rank0 s i = Ok (N.of_nat (length (filter negb (firstn i l))))).
Proof.
  intros us v l Hr. apply bv_reach_rep in Hr. destruct (sb_build_total v l us Hr) as (s & E & Eb & Ok1).
  exists s. split; auto. pose proof Hr as (Hz & _). split; [unfold sb_size; congruence|]. split.
  - intros i b Hi. unfold sb_get. rewrite Eb, (bv_get_rep v l i Hr).
    + f_equal. now apply nth_error_nth.
    + apply nth_error_Some. congruence.
  - intros i Hi Hc. rewrite (rank_ok s l i Ok1 Hi Hc). split; auto. intros H64.
    unfold sb_rank0. rewrite (rank_ok s l i Ok1 Hi Hc). cbn [bind].
    pose proof (count_split (firstn i l)). rewrite firstn_length_le in H by auto. unfold count_false in H.
    rewrite wsub_nat; [do 2 f_equal; lia|lia|lia].
Qed.

Lemma rank_padding : forall us v l x, bv_reach v l -> (x < 2 ^ 64)%N -> exists s, sb_build us v = Ok s /\
  forall i, i <= length l ->
    sb_rank (SBV (BV (bv_size v) (bv_words v ++ [x])) (sb_block s) (sb_tips s)) i = Ok (N.of_nat (count_true (firstn i l))).
Proof.
  intros us v l x Hr Hx. apply bv_reach_rep in Hr. destruct (sb_build_total v l us Hr) as (s & E & Eb & Ok1).
  exists s. split; auto. intros i Hi. rewrite <- Eb. pose proof Hr as (Hz & Hl & Hs & Hb).
  pose proof (Nat.div_mod i 64). pose proof (Nat.mod_upper_bound i 64). pose proof (gws_ge (length l)).
  assert (64 * (i / 64) <= length l) by lia.
  rewrite <- Hl in *.
  apply rank_words; auto; rewrite ?Eb, ?app_length; simpl length.
  - lia.
  - apply Forall_app. split; auto.
  - intros. now rewrite app_nth1.
  - intros. lia.
Qed.

Lemma rank_full_history : forall us v l, bv_reach v l -> l <> [] -> length l mod 64 = 0 ->
  exists s, sb_build us v = Ok s /\ sb_rank s (length l) = UB.
Proof.
  intros us v l Hr Hn Hm. apply bv_reach_rep in Hr. destruct (sb_build_total v l us Hr) as (s & E & Eb & Ok1).
  exists s. split; auto. now apply rank_full_UB.
Qed.


Lemma select_history : forall v l, bv_reach v l -> (N.of_nat (length l) < 2 ^ 41)%N ->
  exists s, sb_build true v = Ok s /\ 
  (forall selw, (forall x, In x (bv_words v) -> selw_ok selw x) ->
    forall k, k < count_true l -> k / 512 <= ones_before_last_block l / 512 ->
    exists p, sb_select selw s k = Ok (N.of_nat p) /\ is_kth_one l k p) /\
  (forall selw k, l <> [] -> ones_before_last_block l / 512 < k / 512 -> sb_select selw s k = UB).
Proof.
  intros v l Hr Hsz. apply bv_reach_rep in Hr. destruct (sb_build_ok v l true Hr Hsz) as (s & E & Eb & Ok1 & T).
  exists s. split; auto.
  assert (O : ones_before_last_block l = b8 (bv_words v) (length l / 512)).
  { unfold ones_before_last_block, b8. apply count_true_R; auto. apply Nat.mul_div_le. lia. }
  assert (O2 : count_true l = R (bv_words v) (length l)).
  { rewrite <- (count_true_R v l) by auto. now rewrite firstn_all. }
  rewrite O, O2. rewrite <- Eb in *. split.
  - intros selw Hsel k Hk Hk2. apply select_ok; auto. right. split; auto. apply T; auto.
    intro; subst. simpl in Hk. unfold R in Hk. simpl in Hk. lia.
  - intros selw k Hn Hk. apply select_UB with l; auto.
Qed.

Lemma bv_reach_words : forall v l, bv_reach v l -> forall x, In x (bv_words v) -> (x < 2 ^ 64)%N.
Proof. intros v l Hr. apply bv_reach_rep in Hr. destruct Hr as (Hz & Hl & Hs & Hb). now apply Forall_forall. Qed.

Lemma kth_one_unique : forall l k p q, is_kth_one l k p -> is_kth_one l k q -> p = q.
Proof.
  assert (X : forall l k p q, is_kth_one l k p -> is_kth_one l k q -> p < q -> False).
  { intros l k p q (A1 & A2) (B1 & B2) H.
    assert (Hq : q < length l) by (apply nth_error_Some; congruence).
    assert (Y : count_true (firstn (S p) l) = S k).
    { rewrite (firstn_S_nth _ l p false) by lia. rewrite count_true_app, A2. apply (nth_error_nth _ _ false) in A1. rewrite A1. 
      unfold count_true. simpl. lia. }
    assert (Z : count_true (firstn (S p) l) <= count_true (firstn q l)).
    { replace (firstn (S p) l) with (firstn (S p) (firstn q l)) by (rewrite firstn_firstn; f_equal; lia).
      rewrite <- (firstn_skipn (S p) (firstn q l)) at 2. rewrite count_true_app. lia. }
    lia. }
  intros l k p q H1 H2. destruct (lt_eq_lt_dec p q) as [[H|H]|H]; auto; exfalso; eauto.
Qed.

Lemma rank_select_history : forall v l selw, bv_reach v l -> (N.of_nat (length l) < 2 ^ 41)%N ->
  (forall x, In x (bv_words v) -> selw_ok selw x) ->
  exists s, sb_build true v = Ok s /\
  (forall k, k < count_true l -> k / 512 <= ones_before_last_block l / 512 ->
     exists p, sb_select selw s k = Ok (N.of_nat p) /\ sb_rank s p = Ok (N.of_nat k)) /\
  (forall i, nth_error l i = Some true -> count_true (firstn i l) / 512 <= ones_before_last_block l / 512 ->
     exists k, sb_rank s i = Ok (N.of_nat k) /\ sb_select selw s k = Ok (N.of_nat i)).
Proof.
  intros v l selw Hr Hsz Hsel. destruct (select_history v l Hr Hsz) as (s & E & S1 & S2).
  destruct (rank_history true v l Hr) as (s' & E' & _ & _ & Rk). rewrite E in E'. injection E' as <-.
  exists s. split; auto. split.
  - intros k Hk Hk2. destruct (S1 selw Hsel k Hk Hk2) as (p & Ep & A1 & A2). exists p. split; auto.
    assert (Hp : p < length l) by (apply nth_error_Some; congruence).
    destruct (Rk p) as (Rp & _); [lia|now left|]. now rewrite Rp, A2.
  - intros i Hi Hc. assert (Hp : i < length l) by (apply nth_error_Some; congruence).
    destruct (Rk i) as (Rp & _); [lia|now left|]. exists (count_true (firstn i l)). split; auto.
    assert (Hk : count_true (firstn i l) < count_true l).
    { rewrite <- (firstn_skipn i l) at 2. rewrite count_true_app. 
      destruct (skipn i l) as [|x r] eqn:Es.
      - apply (f_equal (@length bool)) in Es. rewrite skipn_length in Es. simpl in Es. lia.
      - assert (nth_error l i = Some x).
        { rewrite <- (firstn_skipn i l), Es, nth_error_app2 by (rewrite firstn_length; lia).
          rewrite firstn_length_le by lia. now rewrite Nat.sub_diag. }
        assert (x = true) by congruence. subst x. unfold count_true at 3. simpl. lia. }
    destruct (S1 selw Hsel _ Hk Hc) as (p & Ep & Hkth).
    rewrite Ep. do 2 f_equal. apply kth_one_unique with l (count_true (firstn i l)); auto. split; auto.
Qed.
