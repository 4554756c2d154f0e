(** SA-IS: one pass of induced sorting, for orders given by keys. *)
From Coq Require Import List NArith ZArith Arith Bool Lia Permutation Sorted.
From Verif Require Import Base Spec5 SuffixModel LcpProof SaisRows SaisPut SaisInduce.
Import ListNotations.
Local Open Scope nat_scope.

Lemma lex_lt_asym : forall a b, lex_lt a b -> ~ lex_lt b a.
Proof. intros a b H K. exact (lex_lt_irrefl _ (lex_lt_trans _ _ _ H K)). Qed.
Lemma lex_lt_dec : forall a b, {lex_lt a b} + {~ lex_lt a b}.
Proof.
  induction a as [|x a IH]; intros [|y b]; cbn [lex_lt]; [right; tauto|left; exact I|right; tauto|].
  destruct (N.eq_dec x y) as [->|E].
  - destruct (IH b); [left; right; auto|right]. intros [H|[_ H]]; [lia|auto].
  - destruct (N.ltb x y) eqn:L; [left; left; apply N.ltb_lt; auto|right]. apply N.ltb_ge in L. intros [H|[H _]]; lia.
Qed.
Lemma lex_lt_total : forall a b, a <> b -> lex_lt a b \/ lex_lt b a.
Proof.
  induction a as [|x a IH]; intros [|y b] H; [congruence|left; exact I|right; exact I|]. cbn [lex_lt].
  destruct (N.lt_total x y) as [L|[->|L]]; auto. destruct (IH b) as [Q|Q]; auto. congruence.
Qed.
Lemma lex_app : forall a b c d, lex_lt a b -> length a = length b -> lex_lt (a ++ c) (b ++ d).
Proof. induction a as [|x a IH]; intros [|y b] c d H L; cbn [lex_lt app length] in *; try tauto; try lia. destruct H as [H|[-> H]]; auto. Qed.

Section Keyed.
Variables (str : list N) (maxv : nat).
Hypothesis HV : valid str maxv.
Variables K1 K2 : nat -> list N.
Let n := length str.
Let m := S maxv.
Let ts := classified str.
Let lms := find_lms ts.
Hypothesis same : forall p, p < n -> ty str p = false -> K1 p = K2 p.
Hypothesis inj : forall p q, p < n -> q < n -> K2 p = K2 q -> p = q.
Hypothesis head1 : forall p q, p < n -> q < n -> ch str p < ch str q -> lex_lt (K1 p) (K1 q).
Hypothesis head2 : forall p q, p < n -> q < n -> ch str p < ch str q -> lex_lt (K2 p) (K2 q).
Hypothesis type1 : forall p q, p < n -> lmsb str q = true -> ch str p = ch str q -> ty str p = false -> lex_lt (K1 p) (K1 q).
Hypothesis type2 : forall p q, p < n -> q < n -> ch str p = ch str q -> ty str p = false -> ty str q = true -> lex_lt (K2 p) (K2 q).
Hypothesis step1 : forall p q, p < n -> q < n -> ty str p = false -> ty str q = false -> ch str p = ch str q -> lex_lt (K1 p) (K1 q) -> lex_lt (K1 (S p)) (K1 (S q)).
Hypothesis succ1 : forall p, p < n -> ty str p = false -> lex_lt (K1 (S p)) (K1 p).
Hypothesis step2 : forall p q, S p < n -> S q < n -> ty str p = true -> ty str q = true -> ch str p = ch str q -> lex_lt (K2 p) (K2 q) -> lex_lt (K2 (S p)) (K2 (S q)).
Hypothesis succ2 : forall p, S p < n -> ty str p = true -> lex_lt (K2 p) (K2 (S p)).
Variable order : list nat.
Hypothesis ND : NoDup order.
Hypothesis IO : forall i, In i order <-> i < length lms.
Let R := map (fun i => nth i lms 0) (rev order).
Hypothesis RS : forall c, StronglySorted (fun p q => lex_lt (K1 p) (K1 q)) (filter (fun p => ch str p =? c) R).

Lemma concat_sorted : forall (lt : nat -> nat -> Prop) (f : nat -> list nat) k, (forall c, c < k -> StronglySorted lt (f c)) -> (forall c d x y, c < d -> d < k -> In x (f c) -> In y (f d) -> lt x y) -> StronglySorted lt (concat (map f (seq 0 k))).
Proof.
  intros lt f. induction k as [|k IH]; intros H G; [constructor|]. rewrite seq_S, map_app, concat_app. cbn [map concat Nat.add]. rewrite app_nil_r. apply ss_app.
  - apply IH; auto. intros c d x y C D. apply G; auto.
  - apply H. lia.
  - intros x y X Y. apply in_concat in X. destruct X as (l & L & X). apply in_map_iff in L. destruct L as (c & <- & C). apply in_seq in C. apply (G c k); auto; lia.
Qed.
Lemma in_R : forall p, In p R <-> lmsb str p = true.
Proof.
  intros p. unfold R. rewrite in_map_iff. split.
  - intros (i & <- & I). apply in_rev in I. apply IO in I. apply (in_lms str maxv HV). apply nth_In. exact I.
  - intros P. apply (in_lms str maxv HV) in P. destruct (In_nth _ _ 0 P) as (i & I & E). exists i. split; auto. rewrite <- in_rev. apply IO. exact I.
Qed.
Theorem induce_keyed : exists U, induce maxv str ts lms order = Ok (map Some U) /\ Permutation U (seq 0 n) /\ StronglySorted (fun p q => lex_lt (K2 p) (K2 q)) U.
Proof.
  destruct (sort_exists nat (fun p q => lex_lt (K2 p) (K2 q)) (fun x y => lex_lt_dec _ _) (fun x y z => lex_lt_trans _ _ _) (seq 0 n) (seq_NoDup n 0)) as (W & PW & SW).
  { intros x y X Y NE. apply in_seq in X, Y. apply lex_lt_total. intros E. apply NE. apply inj; auto; lia. }
  assert (IW : forall p, In p W <-> p < n). { intros p. split; intros P; [apply (Permutation_in _ (Permutation_sym PW)) in P; apply in_seq in P; lia|apply (Permutation_in _ PW); apply in_seq; lia]. }
  set (FL := fun c => filter (fun p => (ch str p =? c) && negb (ty str p)) W). set (FS := fun c => filter (fun p => (ch str p =? c) && ty str p) W). set (SL := fun c => filter (fun p => ch str p =? c) R).
  assert (HFL : forall c p, In p (FL c) <-> p < n /\ ch str p = c /\ ty str p = false). { intros c p. unfold FL. rewrite filter_In, IW, andb_true_iff, Nat.eqb_eq, negb_true_iff. tauto. }
  assert (HFS : forall c p, In p (FS c) <-> p < n /\ ch str p = c /\ ty str p = true). { intros c p. unfold FS. rewrite filter_In, IW, andb_true_iff, Nat.eqb_eq. tauto. }
  assert (HSL : forall c p, In p (SL c) <-> lmsb str p = true /\ ch str p = c). { intros c p. unfold SL. rewrite filter_In, in_R, Nat.eqb_eq. tauto. }
  set (U := concat (map (fun c => FL c ++ FS c) (seq 0 m))).
  assert (SU2 : StronglySorted (fun p q => lex_lt (K2 p) (K2 q)) U).
  { apply concat_sorted.
    - intros c C. apply ss_app; try (apply ss_filter; exact SW). intros x y X Y. apply HFL in X. apply HFS in Y. apply type2; try tauto. destruct X as (_ & -> & _), Y as (_ & -> & _). reflexivity.
    - intros c d x y CD D X Y. apply head2.
      + apply in_app_or in X. destruct X as [X|X]; [apply HFL in X|apply HFS in X]; tauto.
      + apply in_app_or in Y. destruct Y as [Y|Y]; [apply HFL in Y|apply HFS in Y]; tauto.
      + apply in_app_or in X, Y. rewrite HFL, HFS in X, Y. assert (ch str x = c) by tauto. assert (ch str y = d) by tauto. lia. }
  assert (SU1 : StronglySorted (fun p q => lex_lt (K1 p) (K1 q)) (concat (map (fun c => FL c ++ SL c) (seq 0 m)))).
  { apply concat_sorted.
    - intros c C. apply ss_app; [|apply RS|].
      + apply ss_ext with (lt := fun p q => lex_lt (K2 p) (K2 q)); [|apply ss_filter; exact SW]. intros x y X Y. apply HFL in X, Y. rewrite !same by tauto. auto.
      + intros x y X Y. apply HFL in X. apply HSL in Y. apply type1; try tauto. destruct X as (_ & -> & _), Y as (_ & ->). reflexivity.
    - assert (LT : forall c x, In x (FL c ++ SL c) -> x < n /\ ch str x = c). { intros c x X. apply in_app_or in X. destruct X as [X|X]; [apply HFL in X; tauto|]. apply HSL in X. destruct X as [X <-]. apply (lmsb_spec str maxv HV) in X. tauto. }
      intros c d x y CD D X Y. apply LT in X, Y. destruct X as [X1 <-], Y as [Y1 <-]. apply head1; auto. }
  exists U. split; [|split; [|exact SU2]].
  - apply (induce_ok str maxv HV (fun p q => lex_lt (K1 p) (K1 q)) (fun p q => lex_lt (K2 p) (K2 q)) FL SL FS HFL HSL HFS SU1 SU2); auto; intros; apply lex_lt_asym; auto.
  - apply NoDup_Permutation; [|apply seq_NoDup|].
    + apply ss_nodup with (2 := SU2). intros x. apply lex_lt_irrefl.
    + intros p. unfold U. rewrite in_concat, in_seq. split.
      * intros (l & L & P). apply in_map_iff in L. destruct L as (c & <- & C). apply in_app_or in P. rewrite HFL, HFS in P. lia.
      * intros P. exists (FL (ch str p) ++ FS (ch str p)). split; [apply in_map_iff; exists (ch str p); split; auto; apply in_seq; assert (ch str p < m) by (apply (ch_lt str maxv HV); fold n; lia); lia|].
        apply in_or_app. rewrite HFL, HFS. destruct (ty str p) eqn:T; [right|left]; split; auto; lia.
Qed.
End Keyed.
