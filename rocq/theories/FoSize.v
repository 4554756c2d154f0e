(** The size of the factor oracle and of the arrays that hold it (C131). *)
From Coq Require Import List NArith ZArith Arith Bool Lia Permutation.
From Verif Require Import Base Spec20 Spec28 FoModel FoFree FoArray FoOracle FoProof FoExact.
Import ListNotations.
Local Open Scope nat_scope.

Lemma filter_positions : forall A (p : A -> bool) d l, length (filter p l) = length (filter (fun i => p (nth i l d)) (seq 0 (length l))).
Proof.
  intros A p d l. assert (G : forall l s, length (filter p l) = length (filter (fun i => p (nth (i - s) l d)) (seq s (length l)))).
  { clear l. induction l as [|a l IH]; intros s; auto. cbn [length seq filter]. rewrite Nat.sub_diag.
    assert (E : filter (fun i => p (nth (i - s) (a :: l) d)) (seq (S s) (length l)) = filter (fun i => p (nth (i - S s) l d)) (seq (S s) (length l))).
    { apply filter_ext_in. intros i Hi. apply in_seq in Hi. destruct (i - s) as [|j] eqn:E; [lia|]. replace (i - S s) with j by lia. reflexivity. }
    rewrite E. change (nth 0 (a :: l) d) with a. destruct (p a); cbn [length]; now rewrite (IH (S s)). }
  rewrite (G l 0). f_equal. apply filter_ext. intros i. now rewrite Nat.sub_0_r.
Qed.

Lemma nodup_app : forall (A : Type) (a b : list A), NoDup a -> NoDup b -> (forall x, In x a -> In x b -> False) -> NoDup (a ++ b).
Proof.
  intros A a b Na Nb H. induction Na as [|x a Nx Na IH]; [auto|]. cbn [app]. constructor; [|apply IH; intros y Hy; apply H; now right]. rewrite in_app_iff. intros [C|C]; [auto|apply (H x); [now left|auto]].
Qed.

Section Size.
Variable ck : list N.
Hypothesis Hck : forall i, i < length ck -> (0 < nth i ck 0 < 256)%N.
Let m := length ck.
Lemma build_blocks : forall fuel o, fo_build fuel ck = Ok o -> exists q0 log lrs st q R, m <= 256 * q0 < m + 256 /\ Built ck o log lrs /\ Arr ck st q R log /\ fo_next o = fo_clear st /\ fo_base o = fb_base st /\ q0 <= q <= q0 + length log.
Proof.
  intros fuel o Eb. assert (Hm : 1 <= m). { unfold m. destruct ck; [|simpl; lia]. rewrite build_empty in Eb. discriminate. }
  destruct (start_ok ck Hck Hm) as (st & q0 & R & E & A & Hq). fold m in Hq. unfold fo_build in Eb. fold m in Eb. apply bind_Ok_inv in Eb. destruct Eb as (st0 & E0 & Eb). fold m in E. rewrite E0 in E. cbn [bind] in E. rewrite E in Eb. cbn [bind] in Eb.
  destruct (letters_ok ck Hck q0 fuel st q0 R A ltac:(lia) m (le_n m)) as [(E2 & C)|(st' & L & q' & R' & log & E2 & A' & I' & Q')]; fold m in E2; rewrite E2 in Eb; [discriminate|].
  cbn [bind fst] in Eb. injection Eb as <-. exists q0, log, L, st', q', R'. split; auto. split; [constructor; auto; exists st', q', R'; auto|]. auto.
Qed.
Lemma log_length : forall o log lrs, Built ck o log lrs -> 1 <= m -> length log + 1 <= m.
Proof.
  intros o log lrs B Hm. pose proof (bt_inv _ _ _ _ B) as I. fold m in I. destruct (depth_ex ck Hck lrs m (iv_lt _ _ _ _ I) m (le_n m)) as (d & Hd). pose proof (iv_count _ _ _ _ I d Hd) as C. inversion Hd; lia.
Qed.
Lemma clear_nth : forall st q R log x, Arr ck st q R log -> x < 256 * q -> nth x (fo_clear st) (Some 0) = if ut_at st x then next_at st x else Some 0.
Proof.
  intros st q R log x A Hx. destruct (ar_free _ _ _ _ _ A) as [Ln _ _ Lu _ _ _ _ _]. unfold fo_clear.
  set (F := fun p : option nat * bool => if snd p then fst p else Some 0). rewrite (nth_indep _ _ (F (None, false))) by (rewrite map_length, combine_length; lia). rewrite map_nth, combine_nth by lia. reflexivity.
Qed.
Lemma taken_slots : forall st q R log, Arr ck st q R log -> NoDup log -> length (filter taken (fo_clear st)) = length log.
Proof.
  intros st q R log A Nd. destruct (ar_free _ _ _ _ _ A) as [Ln _ _ Lu _ _ _ _ _]. assert (Lc : length (fo_clear st) = 256 * q) by (unfold fo_clear; rewrite map_length, combine_length; lia).
  rewrite (filter_positions _ _ (Some 0)), Lc. set (f := fun e : nat * nat => match base_at st (fst e) with Some b => slot b (chk ck (snd e)) | None => 0 end). rewrite <- (map_length f log). apply Permutation_length, NoDup_Permutation.
  - apply NoDup_filter, seq_NoDup.
  - assert (G : forall l, incl l log -> NoDup l -> NoDup (map f l)).
    { induction l as [|[s t] l IH]; intros Il Nl; [constructor|]. inversion Nl as [|? ? N1 N2]; subst. cbn [map]. constructor; [|apply IH; auto; intros z Hz; apply Il; now right].
      intros C. apply in_map_iff in C. destruct C as ([s' t'] & Ef & Ie). apply N1. destruct (ar_edge _ _ _ _ _ A s t (Il _ (or_introl eq_refl))) as (_ & _ & b & Eb & _ & Nx). destruct (ar_edge _ _ _ _ _ A s' t' (Il _ (or_intror Ie))) as (_ & _ & b' & Eb' & _ & Nx').
      unfold f in Ef. cbn [fst snd] in Ef. rewrite Eb, Eb' in Ef. rewrite Ef, Nx in Nx'. injection Nx' as Et. rewrite <- Et in Ef. apply slot_inj in Ef. subst b'. assert (s' = s) by (eapply ar_inj; eauto). subst. auto. }
    apply G; auto. intros z; auto.
  - intros x. rewrite filter_In, in_seq, in_map_iff. split.
    + intros (Lx & T). rewrite (clear_nth st q R log x A) in T by lia. destruct (ut_at st x) eqn:U; [|discriminate]. destruct (ar_own _ _ _ _ _ A _ U) as [->|(s & t & b & I & Eb & Ex)].
      * rewrite (proj2 (ar_0 _ _ _ _ _ A)) in T. discriminate.
      * exists (s, t). split; auto. unfold f. cbn [fst snd]. now rewrite Eb.
    + intros ([s t] & Ef & I). destruct (ar_edge _ _ _ _ _ A s t I) as (Lt & V & b & Eb & U & Nx). unfold f in Ef. cbn [fst snd] in Ef. rewrite Eb in Ef. subst x.
      assert (L : slot b (chk ck t) < 256 * q). { destruct (Nat.lt_ge_cases (slot b (chk ck t)) (256 * q)); auto. rewrite nth_overflow in U by lia. discriminate. }
      split; [lia|]. rewrite (clear_nth st q R log _ A L), U, Nx. destruct t; [lia|reflexivity].
Qed.
End Size.

Theorem oracle_size : forall fuel text o, Forall (fun c => (0 < c < 256)%N) text -> fo_build fuel text = Ok o ->
  exists E L, factor_oracle text E /\ NoDup L /\ (forall s c t, In (s, c, t) L <-> E s c t) /\ length text <= length L <= 2 * length text - 1 /\
    length (fo_base o) = length text + 1 /\ length (filter taken (fo_next o)) = length L - length text /\
    exists q, length (fo_next o) = 256 * q /\ (length text + 255) / 256 <= q <= (length text + 255) / 256 + (length L - length text).
Proof.
  intros fuel text o Hz Eb. pose proof (nonzero_nth _ Hz) as Hck. destruct (build_blocks text Hck fuel o Eb) as (q0 & log & lrs & st & q & R & Hq0 & B & A & En & Ebs & Hq).
  assert (Hm : 1 <= length text) by (destruct text; [rewrite build_empty in Eb; discriminate|simpl; lia]). pose proof (log_length text Hck o log lrs B Hm) as Ll. pose proof (iv_log _ _ _ _ (bt_inv _ _ _ _ B)) as Lg.
  assert (Eq : (length text + 255) / 256 = q0) by (symmetry; apply (Nat.div_unique _ _ q0 (length text + 255 - 256 * q0)); lia).
  set (along := map (fun s => (s, chk text (s + 1), s + 1)) (seq 0 (length text))). set (L := along ++ map (fun e : nat * nat => (fst e, chk text (snd e), snd e)) log).
  assert (LL : length L = length text + length log) by (unfold L, along; rewrite app_length, !map_length, seq_length; auto).
  exists (tr text log), L. split; [exact (tr_oracle text Hck o log lrs B)|]. split; [|split; [|split; [lia|split; [|split]]]].
  - assert (Nm : forall A B (f : A -> B) l, (forall x y, f x = f y -> x = y) -> NoDup l -> NoDup (map f l)).
    { clear. intros A B f l Hf. induction l as [|a l IH]; intros Nl; [constructor|]. inversion Nl; subst. cbn [map]. constructor; auto. intros C. apply in_map_iff in C. destruct C as (y & Ey & Iy). apply Hf in Ey. now subst. }
    unfold L. apply nodup_app.
    + apply Nm; [intros x y E; injection E; lia|apply seq_NoDup].
    + apply Nm; [intros [a b] [c d] E; injection E; intros; subst; auto|apply (lg_nodup _ _ _ Lg)].
    + intros x I1 I2. apply in_map_iff in I1. destruct I1 as (s & <- & _). apply in_map_iff in I2. destruct I2 as ([s' t'] & E & I2). cbn [fst snd] in E. injection E as E1 E2 E3. subst. apply (lg_edge _ _ _ Lg) in I2. lia.
  - intros s c t. unfold L, tr, D. rewrite in_app_iff. unfold along. rewrite !in_map_iff. split.
    + intros [(s' & E & I)|([s' t'] & E & I)]; cbn [fst snd] in E; injection E as -> <- <-; split; auto. left. apply in_seq in I. lia.
    + intros ([(-> & Lt)|I] & <-); [left; exists s; split; auto; apply in_seq; lia|right; exists (s, t); auto].
  - rewrite Ebs. exact (ar_bl _ _ _ _ _ A).
  - rewrite En, LL. rewrite (taken_slots text Hck st q R log A (lg_nodup _ _ _ Lg)). lia.
  - exists q. rewrite Eq, LL. split; [|lia]. rewrite En. unfold fo_clear. destruct (ar_free _ _ _ _ _ A) as [Ln _ _ Lu _ _ _ _ _]. rewrite map_length, combine_length. lia.
Qed.
