(** In-place initializable arrays of float and double: which elements are read wrongly, and what is read instead. *)
From Coq Require Import List NArith ZArith Lia Bool Arith.
From Verif Require Import Base Spec3 Spec18 InitArrayModel InitArrayProof.
Import ListNotations.
Local Open Scope nat_scope.

Lemma pair3 : forall A B C (a x : A) (b y : B) (c z : C), (a, b, c) = (x, y, z) -> a = x /\ b = y /\ c = z.
Proof. intros. inversion H. auto. Qed.
Section Exact.
Variables (w : N) (next : N -> res nat) (size : nat).
Notation n := (kActualSize size).
Notation nb := (nb size).
Hypothesis Hw : (N.of_nat n <= 2 ^ w)%N.
(** every link, read as a number and increased by one, is the index 1 *)
Hypothesis Hnext : forall k, 2 * k < n -> next (N.of_nat (2 * k)) = Ok 1.
Lemma one_history : forall mem v ops, length mem = n -> Forall (ia_op_in size) ops ->
  exists s j, ia_run w size mem v ops = Ok s /\
    (pair_written (rev ops) 0 = true -> j = 1) /\
    (pair_written (rev ops) 0 = false -> 0 < pairs_written (rev ops) nb -> exists k, j = 2 * k /\ pairs_written (rev ops) nb <= k /\ k < nb /\ pair_written (rev ops) k = true) /\
    forall i, i < size -> ia_get next size s i = Ok (ia_last v (rev ops) (if (i mod 2 =? 0) && (pairs_written (rev ops) nb <=? i / 2) && pair_written (rev ops) (i / 2) then j else i)).
Proof.
  intros mem v ops L F. pose proof (n_even w next size Hw) as En. assert (Ls : size <= n) by (unfold kActualSize; lia).
  destruct (ia_history w next size Hw mem v ops L) as (s & E & I). { eapply Forall_impl; [|exact F]. intros [|]; simpl; auto. lia. }
  assert (G : forall i, i < n -> i mod 2 = 1 -> ia_get next size s i = Ok (ia_last v (rev ops) i)).
  { intros i Hi Oi. eapply holds_get; eauto. }
  destruct I as (x & B & R & O & H & V & C). change (count size (pair_written (rev ops))) with (pairs_written (rev ops) nb) in C.
  set (val := ia_last v (rev ops)) in *. set (wr := pair_written (rev ops)) in *. rewrite <- C.
  assert (J : exists j, (wr 0 = true -> j = 1) /\ (wr 0 = false -> 0 < B -> exists k, j = 2 * k /\ B <= k /\ k < nb /\ wr k = true) /\ (0 < B -> B <= nb -> 0 < nb -> O 0 = val j)).
  { destruct (Nat.eq_dec B 0) as [Z|Z]. { exists 1. split; auto. split; intros; lia. }
    destruct (Nat.eq_dec nb 0) as [Zn|Zn]. { exfalso. assert (B <= 0); [|lia]. rewrite C. unfold pairs_written. rewrite Zn. cbn. lia. }
    assert (Z0 : 0 < nb) by lia. destruct (V 0 Z0) as (P1 & P2). destruct (Bv_dec w next size Hw s x B R O 0 H Z0) as [(k & K)|K].
    - specialize (P1 k K). destruct (Nat.ltb_spec 0 B); [|lia]. apply pair3 in P1. destruct P1 as (Q1 & Q2 & Q3). pose proof K as (K1 & K2 & K3 & K4). assert (KB : B <= k) by lia.
      destruct (V k K3) as (P3 & _). specialize (P3 0 (Cr_sym w next size Hw R B 0 k Z0 K)). destruct (Nat.ltb_spec k B); [lia|]. apply pair3 in P3. destruct P3 as (Q4 & Q5 & Q6).
      exists (2 * k). fold wr in Q3, Q6. split; [congruence|]. split; [|congruence]. intros _ _. exists k. auto.
    - specialize (P2 K). destruct (Nat.ltb_spec 0 B); [|lia]. apply pair3 in P2. destruct P2 as (Q1 & Q2 & Q3). exists 1. fold wr in Q3. split; auto. split; [congruence|]. intros _ _ _. symmetry. exact Q2. }
  destruct J as (j & J1 & J2 & J3). exists s, j. split; [exact E|]. split; auto. split; auto. intros i Hi.
  destruct (halves w next size Hw i) as [(X & Y)|(X & Y)]; rewrite Y; cbn [Nat.eqb andb]. 2: { apply G; [lia|exact Y]. }
  assert (Hb : i / 2 < nb) by lia. destruct (V _ Hb) as (P1 & P2). destruct (st_chained w next size Hw s x B R O (i / 2) H Hb) as (o & Eo & Ho).
  unfold ia_get. rewrite Eo. cbn [bind]. assert (Eb : ia_b s = B) by apply H. assert (Ev : ia_init s = x) by apply H. rewrite Eb, Ev.
  assert (EL : (i <? 2 * B) = (i / 2 <? B)) by (destruct (Nat.ltb_spec i (2 * B)), (Nat.ltb_spec (i / 2) B); auto; lia). rewrite EL.
  assert (Get : ia_to s i = Ok (R (i / 2))) by (rewrite X at 1; eapply st_get_even; eauto).
  rewrite Y. cbn [Nat.eqb]. destruct o as [k|].
  - specialize (P1 k Ho). destruct (Nat.ltb_spec (i / 2) B).
    + apply pair3 in P1. destruct P1 as (Q1 & Q2 & Q3). rewrite Q3. rewrite andb_false_r. f_equal. rewrite <- Q1. f_equal. lia.
    + apply pair3 in P1. destruct P1 as (Q1 & Q2 & Q3). rewrite Q3. destruct (Nat.leb_spec B (i / 2)); [|lia]. cbn [andb]. rewrite Get. cbn [bind].
      destruct Ho as (C1 & C2 & C3 & C4). replace (R (i / 2)) with (N.of_nat (2 * k)) by lia. rewrite Hnext by lia. cbn [bind].
      change 1 with (2 * 0 + 1). rewrite (st_get_odd w next size Hw s x B R O 0 H) by lia. f_equal. apply J3; lia.
  - specialize (P2 Ho). destruct (Nat.ltb_spec (i / 2) B).
    + apply pair3 in P2. destruct P2 as (Q1 & Q2 & Q3). destruct (Nat.leb_spec B (i / 2)); [lia|]. cbn [andb]. rewrite Get. f_equal. rewrite <- Q1. f_equal. lia.
    + apply pair3 in P2. destruct P2 as (Q1 & Q2 & Q3). rewrite Q3, andb_false_r. f_equal. rewrite <- Q1. f_equal. lia.
Qed.
End Exact.
Lemma float_every : forall w digits next size mem v ops, w = 32%N /\ digits = 24%N /\ next = next_float \/ w = 64%N /\ digits = 53%N /\ next = next_double ->
  in_place_case digits size -> length mem = kActualSize size -> Forall (ia_op_in size) ops ->
  let m := kActualSize size / 2 in
  exists s j, ia_run w size mem v ops = Ok s /\
    (pair_written (rev ops) 0 = true -> j = 1) /\
    (pair_written (rev ops) 0 = false -> 0 < pairs_written (rev ops) m -> exists k, j = 2 * k /\ pairs_written (rev ops) m <= k /\ k < m /\ pair_written (rev ops) k = true) /\
    forall i, i < size -> ia_get next size s i = Ok (ia_last v (rev ops) (if (i mod 2 =? 0) && (pairs_written (rev ops) m <=? i / 2) && pair_written (rev ops) (i / 2) then j else i)).
Proof.
  intros w digits next size mem v ops HT (Hd & Hn) L F. cbv zeta. change (kActualSize size / 2) with (nb size). apply one_history; auto.
  - destruct HT as [(-> & -> & ->)|(-> & -> & ->)]; eapply N.le_trans; try exact Hn; apply N.pow_le_mono_r; lia.
  - intros k Hk. assert (Hk' : (N.of_nat (2 * k) < N.of_nat (kActualSize size))%N) by lia. destruct HT as [(-> & -> & ->)|(-> & -> & ->)]; [unfold next_float|unfold next_double].
    + destruct (N.ltb_spec (N.of_nat (2 * k)) 864026624); [reflexivity|]. change (2 ^ 24)%N with 16777216%N in Hn. lia.
    + destruct (N.ltb_spec (N.of_nat (2 * k)) 4368491638549381120); [reflexivity|]. change (2 ^ 53)%N with 9007199254740992%N in Hn. lia.
Qed.
