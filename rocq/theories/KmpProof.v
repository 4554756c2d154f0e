(** Proofs about Kmp. *)
From Coq Require Import List NArith ZArith Arith Bool Lia.
From Verif Require Import Base Spec4 PatternModel PatternProof.
Import ListNotations.
Local Open Scope nat_scope.

Lemma skipn_cons' : forall (l : list N) i, i < length l -> skipn i l = nth i l 0%N :: skipn (S i) l.
Proof. induction l as [|c l IH]; intros [|i] Hi; simpl in *; try lia; auto. apply IH. lia. Qed.

Section Border.
Variable K : nat -> N.
(** the prefix of length b is a suffix of the prefix of length a *)
Definition bord (a b : nat) : Prop := b <= a /\ forall j, j < b -> K j = K (a - b + j).
Lemma bord_refl : forall a, bord a a.
Proof. intros a. split; auto. intros. now rewrite Nat.sub_diag. Qed.
Lemma bord_trans : forall a b c, bord a b -> bord b c -> bord a c.
Proof.
  intros a b c (L1 & H1) (L2 & H2). split; [lia|]. intros j Hj. rewrite H2 by auto. rewrite H1 by lia. f_equal; lia.
Qed.
Lemma bord_down : forall a b c, bord a b -> bord a c -> c <= b -> bord b c.
Proof.
  intros a b c (L1 & H1) (L2 & H2) L. split; auto. intros j Hj. rewrite H2 by auto. rewrite (H1 (b - c + j)) by lia. f_equal; lia.
Qed.
Lemma bord_S : forall a b, bord (S a) (S b) <-> bord a b /\ K b = K a.
Proof.
  intros a b. split.
  - intros (L & H). split.
    + split; [lia|]. intros j Hj. rewrite H by lia. f_equal; lia.
    + rewrite (H b ltac:(lia)). f_equal; lia.
  - intros ((L & H) & E). split; [lia|]. intros j Hj. destruct (Nat.eq_dec j b) as [->|]; [rewrite E; f_equal; lia|]. rewrite H by lia. f_equal; lia.
Qed.
Lemma bord_0 : forall a, bord a 0.
Proof. intros. split; [lia|]. intros; lia. Qed.

(** what next[j] may be *)
Definition next_ok (j : nat) (v : Z) : Prop :=
  (v = (-1)%Z \/ exists b, v = Z.of_nat b /\ b < j /\ bord j b) /\ forall b, b < j -> (v < Z.of_nat b)%Z -> bord j b -> K b = K j.
(** the next position to try for character c, from n *)
Definition landing (n : nat) (c : N) (r : Z) : Prop :=
  (r = (-1)%Z \/ exists b, r = Z.of_nat b /\ bord n b /\ K b = c) /\ forall b, (r < Z.of_nat b)%Z -> bord n b -> K b <> c.
Lemma kmp_back_ok : forall mem next c fuel n, (forall j, j <= n -> j < length mem /\ nth j mem 0%N = K j) -> (forall j, j <= n -> j < length next /\ next_ok j (nth j next 0%Z)) -> n < fuel ->
  exists r, kmp_back fuel mem next c (Z.of_nat n) = Ok r /\ landing n c r.
Proof.
  intros mem next c. induction fuel as [|fuel IH]; intros n Hm Hn Hf; [lia|]. cbn [kmp_back]. rewrite (proj2 (Z.eqb_neq _ _)) by lia. rewrite Nat2Z.id. destruct (Hm n (le_n _)) as (Lm & Em). rewrite (lget_nth _ mem n 0%N) by auto. cbn [bind].
  rewrite Em. destruct (N.eqb_spec (K n) c) as [E|E].
  - exists (Z.of_nat n). split; auto. split; [right; exists n; split; auto; split; auto; apply bord_refl|]. intros b Hb (L & _). lia.
  - destruct (Hn n (le_n _)) as (Ln & (N1 & N2)). rewrite (lget_nth _ next n 0%Z) by auto. cbn [bind]. destruct N1 as [V|(b & V & Lb & Bb)]; rewrite V in *.
    + exists (-1)%Z. split; [destruct fuel; reflexivity|]. split; auto. intros b Hb Bb. destruct (Nat.eq_dec b n) as [->|]; auto. rewrite N2; auto. destruct Bb. lia.
    + destruct (IH b) as (r & Er & (R1 & R2)); [intros; apply Hm; lia|intros; apply Hn; lia|lia|]. exists r. split; auto. split.
      * destruct R1 as [R1|(b' & Eb' & Bb' & Kb')]; auto. right. exists b'. split; auto. split; auto. now apply bord_trans with b.
      * intros b' Hb' Bb'. destruct (Nat.le_gt_cases b' b).
        -- apply R2; auto. now apply bord_down with n.
        -- destruct (Nat.eq_dec b' n) as [->|]; auto. rewrite N2; auto; [destruct Bb'; lia|lia].
Qed.

(** longest proper border, -1 for the empty prefix *)
Definition longest (i : nat) (n : Z) : Prop :=
  (i = 0 /\ n = (-1)%Z) \/ exists b, n = Z.of_nat b /\ b < i /\ bord i b /\ forall b', b < b' < i -> ~ bord i b'.
Lemma longest_next : forall i n r, longest i n -> (n = -1 /\ r = -1)%Z \/ (exists b, n = Z.of_nat b /\ landing b (K i) r) -> exists b, (r + 1 = Z.of_nat b)%Z /\ b < S i /\ bord (S i) b /\ forall b', b < b' < S i -> ~ bord (S i) b'.
Proof.
  intros i n r Ln Hr. destruct Hr as [(-> & ->)|(b & -> & (R1 & R2))].
  - destruct Ln as [(-> & _)|(b & Eb & _)]; [|lia]. exists 0. split; auto. split; auto. split; [apply bord_0|]. intros; lia.
  - destruct Ln as [(_ & F)|(b0 & Eb & Lb & Bb & Mx)]; [lia|]. assert (b0 = b) by lia. subst b0.
    assert (Up : forall b', S b' < S i -> bord (S i) (S b') -> bord b b' /\ K b' = K i).
    { intros b' Hb' B'. apply bord_S in B'. destruct B' as (B1 & B2). split; auto. apply bord_down with i; auto. destruct (Nat.le_gt_cases b' b); auto. exfalso. apply (Mx b'); [lia|auto]. }
    destruct R1 as [->|(r' & -> & Br & Kr)].
    + exists 0. split; auto. split; [lia|]. split; [apply bord_0|]. intros [|b'] Hb' B'; [lia|]. destruct (Up b' ltac:(lia) B') as (U1 & U2). apply (R2 b'); [lia|auto|auto].
    + exists (S r'). split; [lia|]. destruct Br as (Lr & Br'). split; [lia|]. split; [apply bord_S; split; auto; apply bord_trans with b; auto; split; auto|].
      intros [|b'] Hb' B'; [lia|]. destruct (Up b' ltac:(lia) B') as (U1 & U2). apply (R2 b'); [lia|auto|auto].
Qed.
End Border.

Section Kmp.
Variable key : list N.
Let m := length key.
Let K := fun j => nth j key 0%N.

Definition filled (next : list Z) (i : nat) : Prop := length next = m + 1 /\ forall j, j <= i -> (j < m -> next_ok K j (nth j next 0%Z)) /\ (j = m -> (nth j next 0%Z = (-1)%Z \/ exists b, nth j next 0%Z = Z.of_nat b /\ b < m /\ bord K m b) /\ forall b, (nth j next 0%Z < Z.of_nat b)%Z -> b < m -> ~ bord K m b).
Lemma kmp_fill_ok : forall next n i, i < m -> filled next i -> longest K i n -> exists next' n', kmp_fill key (next, n) i = Ok (next', n') /\ filled next' (S i) /\ longest K (S i) n'.
Proof.
  intros next n i Hi (Ln & F) Lg. unfold kmp_fill. rewrite (lget_nth _ key i 0%N) by auto. cbn [bind].
  assert (Bk : exists r, kmp_back (S (length key)) key next (nth i key 0%N) n = Ok r /\ ((n = -1 /\ r = -1)%Z \/ (exists b, n = Z.of_nat b /\ landing K b (K i) r))).
  { destruct Lg as [(-> & ->)|(b & -> & Lb & Bb & Mx)].
    - exists (-1)%Z. split; auto.
    - destruct (kmp_back_ok K key next (nth i key 0%N) (S (length key)) b) as (r & Er & R).
      + intros j Hj. split; [fold m; lia|reflexivity].
      + intros j Hj. split; [lia|]. apply F; lia.
      + fold m. lia.
      + exists r. split; auto. right. exists b. auto. }
  destruct Bk as (r & Er & R). rewrite Er. cbn [bind]. destruct (longest_next K i n r Lg R) as (b & Eb & Lb & Bb & Mx). rewrite Eb. rewrite Nat2Z.id. fold m.
  assert (V : exists v, (if i + 1 <? m then do a <- lget key (i + 1); do b0 <- lget key b; (if (a =? b0)%N then lget next b else Ok (Z.of_nat b)) else Ok (Z.of_nat b)) = Ok v /\
    ((S i < m -> next_ok K (S i) v) /\ (S i = m -> v = Z.of_nat b))).
  { destruct (Nat.ltb_spec (i + 1) m).
    - rewrite (lget_nth _ key (i + 1) 0%N) by (fold m; lia). rewrite (lget_nth _ key b 0%N) by (fold m; lia). cbn [bind]. rewrite Nat.add_1_r.
      assert (Ob : forall b', b' < S i -> bord K (S i) b' -> b' <= b) by (intros b' H1 H2; destruct (Nat.le_gt_cases b' b); auto; exfalso; apply (Mx b'); [lia|auto]).
      destruct (N.eqb_spec (nth (S i) key 0%N) (nth b key 0%N)) as [E|E].
      + rewrite (lget_nth _ next b 0%Z) by lia. eexists. split; [reflexivity|]. split; [|lia]. intros _. destruct (F b ltac:(lia)) as (Fb & _). destruct (Fb ltac:(lia)) as (N1 & N2). split.
        * destruct N1 as [N1|(x & Ex & Lx & Bx)]; auto. right. exists x. split; auto. split; [lia|]. now apply bord_trans with b.
        * intros b' Hb' V' B'. pose proof (Ob b' Hb' B'). destruct (Nat.eq_dec b' b) as [->|]; [symmetry; exact E|]. transitivity (K b); [|symmetry; exact E]. apply N2; auto; [lia|]. apply bord_down with (S i); auto.
      + eexists. split; [reflexivity|]. split; [|lia]. intros _. split; [right; exists b; auto|]. intros b' Hb' V' B'. pose proof (Ob b' Hb' B'). lia.
    - eexists. split; [reflexivity|]. split; auto. lia. }
  destruct V as (v & Ev & V1 & V2). rewrite Ev. cbn [bind]. rewrite lset_Ok by lia. cbn [bind]. eexists. eexists. split; [reflexivity|]. split.
  - split; [now rewrite upd_length|]. intros j Hj. rewrite nth_upd. rewrite (proj2 (Nat.ltb_lt (i + 1) _)) by lia. rewrite andb_true_r. destruct (Nat.eqb_spec j (i + 1)) as [->|Nj].
    + rewrite Nat.add_1_r. split; [auto|]. intros Em. rewrite (V2 Em). rewrite <- Em. split; [right; exists b; auto|]. intros b' Hb' Lb' B'. apply (Mx b'); [lia|auto].
    + apply F. lia.
  - right. exists b. auto.
Qed.
Lemma kmp_make_ok : 1 <= m -> exists next, kmp_make key = Ok next /\ filled next m.
Proof.
  intros Hm. unfold kmp_make. fold m. rewrite lset_Ok by (rewrite repeat_length; lia). cbn [bind].
  assert (G : forall k, k <= m -> exists next n, foldM (kmp_fill key) (seq 0 k) (upd (repeat 0%Z (m + 1)) 0 (-1)%Z, (-1)%Z) = Ok (next, n) /\ filled next k /\ longest K k n).
  { induction k as [|k IH]; intros Hk.
    - eexists. eexists. split; [reflexivity|]. split; [|left; auto]. split; [now rewrite upd_length, repeat_length|]. intros j Hj. assert (j = 0) by lia. subst j. split; [|lia]. intros _.
      rewrite nth_upd. rewrite repeat_length, (proj2 (Nat.ltb_lt _ _)) by lia. cbn. split; [auto|]. intros; lia.
    - destruct (IH ltac:(lia)) as (next & n & E & F & Lg). rewrite seq_S, foldM_app, E. cbn [bind foldM plus]. destruct (kmp_fill_ok next n k ltac:(lia) F Lg) as (next' & n' & E' & F' & Lg'). rewrite E'. cbn [bind]. exists next', n'. auto. }
  destruct (G m (le_n _)) as (next & n & E & F & _). rewrite E. cbn [bind fst]. exists next. auto.
Qed.

(** ** the search *)
Variable text : list N.
Let T := fun j => nth j text 0%N.
(** the prefix of length b is a suffix of text[0..i) *)
Definition tb (i b : nat) : Prop := b <= i /\ b <= m /\ forall j, j < b -> K j = T (i - b + j).
Lemma tb_S : forall i b, tb (S i) (S b) <-> tb i b /\ b < m /\ K b = T i.
Proof.
  intros i b. split.
  - intros (L1 & L2 & H). split; [|split; [lia|]].
    + split; [lia|]. split; [lia|]. intros j Hj. rewrite H by lia. f_equal; lia.
    + rewrite (H b ltac:(lia)). f_equal; lia.
  - intros ((L1 & L2 & H) & Lb & E). split; [lia|]. split; [lia|]. intros j Hj. destruct (Nat.eq_dec j b) as [->|]; [rewrite E; f_equal; lia|]. rewrite H by lia. f_equal; lia.
Qed.
Lemma tb_bord : forall K' i a b, (forall j, j < m -> K' j = K j) -> tb i a -> (b <= a /\ tb i b <-> bord K' a b).
Proof.
  intros K' i a b EK (L1 & L2 & H). split.
  - intros (Lb & (_ & L4 & H')). split; auto. intros j Hj. rewrite !EK by lia. rewrite H' by auto. rewrite (H (a - b + j)) by lia. f_equal; lia.
  - intros (Lb & H'). split; auto. split; [lia|]. split; [lia|]. intros j Hj. pose proof (H' j Hj) as E. rewrite !EK in E by lia. rewrite E. rewrite H by lia. f_equal; lia.
Qed.
Definition longest_tb (i b : nat) : Prop := tb i b /\ forall b', tb i b' -> b' <= b.
Lemma occ_tb : forall i, i <= length text -> 1 <= m -> (tb i m <-> m <= i /\ occurs_at key text (i - m) = true).
Proof.
  intros i Hi Hm. split.
  - intros (L & _ & H). split; auto. apply occurs_spec; [lia|]. fold m. split; [lia|]. intros j Hj. now apply H.
  - intros (L & O). apply occurs_spec in O; [|lia]. destruct O as (_ & O). split; [auto|]. split; [auto|]. intros j Hj. now apply O.
Qed.
Variable beyond : list N.
(** either the byte after the key does not occur in the text or no occurrence ends before the end of the text *)
Definition safe_end : Prop := (exists z r, beyond = z :: r /\ ~ In z text) \/ forall i, i < length text -> ~ tb i m.
Lemma search_ok : forall next, 1 <= m -> filled next m -> safe_end -> forall k i pos, i + k = length text -> longest_tb i pos ->
  kmp_loop (key ++ beyond) m next (skipn i text) i (Z.of_nat pos) = Ok (filter (occurs_at key text) (seq (S i - m) (length text - (if i <? m then m - 1 else i)))).
Proof.
  intros next Hm (Ln & F) Safe. induction k as [|k IH]; intros i pos Hi (Tp & Mx).
  - rewrite skipn_all2 by lia. cbn [kmp_loop]. f_equal. symmetry. replace (length text - (if i <? m then m - 1 else i)) with 0; auto. destruct (Nat.ltb_spec i m); lia.
  - assert (Es : skipn i text = T i :: skipn (S i) text).
    { apply skipn_cons'. lia. }
    rewrite Es. cbn [kmp_loop].
    (* the character read at pos = m *)
    pose (K' := fun j => if j <? m then K j else nth j (key ++ beyond) 0%N).
    assert (EK : forall j, j < m -> K' j = K j) by (intros j Hj; unfold K'; now rewrite (proj2 (Nat.ltb_lt _ _))).
    assert (Lp : pos <= m) by apply Tp.
    assert (Hbeyond : pos = m -> m < length (key ++ beyond) /\ K' m <> T i).
    { intros ->. destruct Safe as [(z & r & -> & Nz)|Nt]; [|exfalso; apply (Nt i); [lia|auto]]. rewrite app_length. simpl. split; [fold m; lia|]. unfold K'. rewrite Nat.ltb_irrefl. rewrite app_nth2 by (fold m; lia). fold m. rewrite Nat.sub_diag. simpl. intros ->. apply Nz. unfold T. apply nth_In. lia. }
    assert (Bk : exists r, kmp_back (S m) (key ++ beyond) next (T i) (Z.of_nat pos) = Ok r /\ ((r = -1)%Z \/ exists b, r = Z.of_nat b /\ b < m /\ bord K' pos b /\ K b = T i) /\ (forall b, b < m -> (r < Z.of_nat b)%Z -> bord K' pos b -> K b <> T i)).
    { assert (Small : forall n, n < m -> exists r, kmp_back m (key ++ beyond) next (T i) (Z.of_nat n) = Ok r /\ landing K n (T i) r).
      { intros n Hn. destruct (kmp_back_ok K (key ++ beyond) next (T i) m n) as (r & Er & R); auto.
        - intros j Hj. rewrite app_length. split; [fold m; lia|]. rewrite app_nth1 by (fold m; lia). reflexivity.
        - intros j Hj. split; [lia|]. apply F; lia.
        - exists r. auto. }
      assert (BK : forall a b, a <= m -> bord K' a b <-> bord K a b). { intros a b La. split; intros (L & H'); split; auto; intros j Hj; specialize (H' j Hj); rewrite !EK in * by lia; auto. }
      destruct (Nat.eq_dec pos m) as [->|Np].
      - destruct (Hbeyond eq_refl) as (Lm & Nm). cbn [kmp_back]. rewrite (proj2 (Z.eqb_neq _ _)) by lia. rewrite Nat2Z.id. rewrite (lget_nth _ _ m 0%N) by auto. cbn [bind].
        assert (En : nth m (key ++ beyond) 0%N <> T i) by (intros C; apply Nm; unfold K'; rewrite Nat.ltb_irrefl; exact C). rewrite (proj2 (N.eqb_neq _ _)) by auto.
        rewrite (lget_nth _ next m 0%Z) by lia. cbn [bind]. destruct (F m (le_n _)) as (_ & Fm). destruct (Fm eq_refl) as (F1 & F2). destruct F1 as [V|(b & V & Lb & Bb)]; rewrite V in *.
        + exists (-1)%Z. split; [destruct m; reflexivity|]. split; auto. intros b Lb Hb B. exfalso. apply (F2 b); auto. apply BK; auto.
        + destruct (Small b Lb) as (r & Er & (R1 & R2)). exists r. split; auto. split.
          * destruct R1 as [R1|(b' & E1 & E2 & E3)]; auto. right. exists b'. split; auto. pose proof (proj1 E2). split; [lia|]. split; auto. apply BK; auto. now apply bord_trans with b.
          * intros b' Lb' Hb' B'. apply BK in B'; auto. destruct (Nat.le_gt_cases b' b); [|exfalso; apply (F2 b'); auto; lia]. apply R2; auto. now apply bord_down with m.
      - destruct (kmp_back_ok K (key ++ beyond) next (T i) (S m) pos) as (r & Er & (R1 & R2)); try lia.
        + intros j Hj. rewrite app_length. split; [fold m; lia|]. rewrite app_nth1 by (fold m; lia). reflexivity.
        + intros j Hj. split; [lia|]. apply F; lia.
        + exists r. split; auto. split.
          * destruct R1 as [R1|(b' & E1 & E2 & E3)]; auto. right. exists b'. pose proof (proj1 E2). split; auto. split; [lia|]. split; auto. apply BK; auto.
          * intros b' Lb' Hb' B'. apply BK in B'; auto. }
    destruct Bk as (r & Er & R1 & R2). rewrite Er. cbn [bind].
    assert (NB : exists p', (r + 1 = Z.of_nat p')%Z /\ longest_tb (S i) p').
    { assert (Up : forall b', tb (S i) (S b') -> bord K' pos b' /\ b' < m /\ K b' = T i).
      { intros b' B'. apply tb_S in B'. destruct B' as (B1 & B2 & B3). split; auto. apply (tb_bord K' i pos b' EK Tp). split; auto. }
      destruct R1 as [->|(b & -> & Lb & Bb & Kb)].
      - exists 0. split; auto. split; [split; [lia|]; split; [lia|]; intros; lia|]. intros [|b'] B'; auto. destruct (Up b' B') as (U1 & U2 & U3). exfalso. apply (R2 b'); auto. lia.
      - exists (S b). split; [lia|]. split.
        + apply tb_S. split; auto. apply (tb_bord K' i pos b EK Tp) in Bb. apply Bb.
        + intros [|b'] B'; [lia|]. destruct (Up b' B') as (U1 & U2 & U3). destruct (Nat.le_gt_cases b' b); [lia|]. exfalso. apply (R2 b'); auto. lia. }
    destruct NB as (p' & Ep & Lt'). rewrite Ep. rewrite (IH (S i) p' ltac:(lia) Lt'). cbn [bind]. f_equal.
    assert (Eq : (Z.of_nat p' =? Z.of_nat m)%Z = true <-> tb (S i) m).
    { rewrite Z.eqb_eq. destruct Lt' as (T1 & T2). split; [intros E; assert (p' = m) by lia; subst; auto|]. intros Tm. pose proof (T2 m Tm). destruct T1 as (_ & T1 & _). lia. }
    destruct (Nat.ltb_spec i m) as [Im|Im]; destruct (Nat.ltb_spec (S i) m) as [Sm|Sm]; try lia.
    + replace (Z.of_nat p' =? Z.of_nat m)%Z with false; [do 2 f_equal; lia|]. symmetry. apply not_true_iff_false. rewrite Eq. intros (C & _). lia.
    + assert (S i = m) by lia. replace (S i - m) with 0 by lia. replace (S (S i) - m) with 1 by lia. replace (length text - (m - 1)) with (S (length text - S i)) by lia. cbn [seq filter]. replace (i + 1 - m) with 0 by lia.
      pose proof (occ_tb (S i) ltac:(lia) Hm) as Ot. replace (S i - m) with 0 in Ot by lia.
      destruct (occurs_at key text 0) eqn:Eo; destruct (Z.of_nat p' =? Z.of_nat m)%Z eqn:Ez; auto.
      * exfalso. assert (C : tb (S i) m) by (apply Ot; split; [lia|auto]). apply Eq in C. congruence.
      * exfalso. pose proof (proj1 Eq eq_refl) as Q. apply Ot in Q. destruct Q. congruence.
    + replace (length text - i) with (S (length text - S i)) by lia. replace (i + 1 - m) with (S i - m) by lia. replace (S (S i) - m) with (S (S i - m)) by lia. cbn [seq filter].
      pose proof (occ_tb (S i) ltac:(lia) Hm) as Ot.
      destruct (occurs_at key text (S i - m)) eqn:Eo; destruct (Z.of_nat p' =? Z.of_nat m)%Z eqn:Ez; auto.
      * exfalso. assert (C : tb (S i) m) by (apply Ot; split; [lia|auto]). apply Eq in C. congruence.
      * exfalso. pose proof (proj1 Eq eq_refl) as Q. apply Ot in Q. destruct Q. congruence.
Qed.
Lemma kmp_correct' : key <> [] -> safe_end -> match_kmp beyond text key = Ok (occurrences key text).
Proof.
  intros Nk Safe. assert (Hm : 1 <= m) by (destruct (Nat.eq_dec (length key) 0) as [E0|E0]; [apply length_zero_iff_nil in E0; congruence|unfold m; lia]). unfold match_kmp. destruct (kmp_make_ok Hm) as (next & E & F). rewrite E. cbn [bind].
  fold m. pose proof (search_ok next Hm F Safe (length text) 0 0) as S0. rewrite skipn_O in S0. change (Z.of_nat 0) with 0%Z in S0. rewrite S0; clear S0; [|lia|].
  - f_equal. rewrite (proj2 (Nat.ltb_lt 0 m)) by lia. replace (1 - m) with 0 by lia. unfold occurrences.
    replace (S (length text)) with ((length text - (m - 1)) + (S (length text) - (length text - (m - 1)))) by lia. rewrite seq_app, filter_app. rewrite (filter_none _ (0 + _)); [now rewrite app_nil_r|].
    intros x Hx. destruct (occurs_at key text x) eqn:Eo; auto. apply occurs_spec in Eo; [|lia]. fold m in Eo. lia.
  - split; [split; [lia|]; split; [lia|]; intros; lia|]. intros b' (L & _). auto.
Qed.
End Kmp.

(** a string followed by a byte that does not occur in the text, as for '\0'-terminated strings *)
Theorem kmp_terminated : forall text key z, key <> [] -> ~ In z text -> match_kmp [z] text key = Ok (occurrences key text).
Proof. intros text key z Nk Nz. apply kmp_correct'; auto. left. exists z, []. auto. Qed.
(** no read outside the key if no occurrence ends before the end of the text *)
Theorem kmp_strict : forall text key, key <> [] -> (forall i, i + length key < length text -> occurs_at key text i = false) -> match_kmp [] text key = Ok (occurrences key text).
Proof.
  intros text key Nk H. apply kmp_correct'; auto. right. intros i Hi C. assert (1 <= length key) by (destruct key; [congruence|simpl; lia]). apply occ_tb in C; [|lia|auto]. destruct C as (C1 & C2). rewrite H in C2; [discriminate|lia].
Qed.
