(** Deciding valleys and stretches, for the examples. *)
From Coq Require Import List NArith Arith Bool Lia Sorted.
From Verif Require Import Spec5 Spec6 SaisKey.
Import ListNotations.
Local Open Scope nat_scope.

Fixpoint ltb (a b : list N) : bool := match a, b with _, [] => false | [], _ :: _ => true | x :: a, y :: b => (x <? y)%N || ((x =? y)%N && ltb a b) end.
Lemma ltb_spec : forall a b, ltb a b = true <-> lex_lt a b.
Proof.
  induction a as [|x a IH]; intros [|y b]; cbn [ltb lex_lt]; try (split; [discriminate|tauto]); [tauto|].
  rewrite orb_true_iff, andb_true_iff, N.ltb_lt, N.eqb_eq, IH. tauto.
Qed.
Definition valleyb (s : list N) (i : nat) : bool := (0 <? i) && (i <=? length s) && ltb (skipn i s) (skipn (i - 1) s) && ((length s <=? i) || ltb (skipn i s) (skipn (S i) s)).
Lemma valleyb_spec : forall s i, valleyb s i = true <-> valley s i.
Proof.
  intros s i. unfold valleyb, valley. rewrite !andb_true_iff, orb_true_iff, !ltb_spec, Nat.ltb_lt, !Nat.leb_le. split.
  - intros (((A & B) & C) & D). split; [lia|]. split; auto. intros E. destruct D; [lia|auto].
  - intros ((A & B) & C & D). split; [auto|]. destruct (le_lt_dec (length s) i); auto.
Qed.
Definition opt_eqb (a b : option N) : bool := match a, b with Some x, Some y => (x =? y)%N | None, None => true | _, _ => false end.
Lemma opt_eqb_spec : forall a b, opt_eqb a b = true <-> a = b.
Proof. intros [x|] [y|]; cbn [opt_eqb]; rewrite ?N.eqb_eq; split; congruence. Qed.
Definition stretchb (s : list N) (p q : nat) : bool :=
  existsb (fun d => valleyb s (p + d) && valleyb s (q + d) && forallb (fun e => negb (valleyb s (p + e)) && negb (valleyb s (q + e))) (seq 1 (d - 1)) && forallb (fun e => opt_eqb (nth_error s (p + e)) (nth_error s (q + e))) (seq 0 (S d))) (seq 1 (length s)).
Lemma stretchb_spec : forall s p q, stretchb s p q = true <-> same_stretch s p q.
Proof.
  intros s p q. unfold stretchb, same_stretch. rewrite existsb_exists. split.
  - intros (d & D & H). apply in_seq in D. rewrite !andb_true_iff, !valleyb_spec, !forallb_forall in H. destruct H as (((A & B) & C) & E). exists d. split; [lia|]. split; auto. split; auto. split.
    + intros e He. specialize (C e ltac:(apply in_seq; lia)). apply andb_prop in C. destruct C as [C1 C2]. apply negb_true_iff in C1, C2. split; intros X; apply valleyb_spec in X; congruence.
    + intros e He. apply opt_eqb_spec. apply E. apply in_seq. lia.
  - intros (d & D & A & B & C & E). exists d. split; [apply in_seq; destruct A as [A _]; lia|]. rewrite !andb_true_iff, !valleyb_spec, !forallb_forall. split; [split; [auto|]|].
    + intros e He. apply in_seq in He. destruct (C e ltac:(lia)) as [C1 C2]. rewrite <- valleyb_spec in C1, C2. apply not_true_is_false in C1, C2. rewrite C1, C2. reflexivity.
    + intros e He. apply in_seq in He. apply opt_eqb_spec. apply E. lia.
Qed.
Definition firstb (s : list N) : bool :=
  forallb (fun p => forallb (fun q => negb (valleyb s p && valleyb s q && stretchb s p q) || (p =? q)) (seq 0 (S (length s)))) (seq 0 (S (length s))) &&
  forallb (fun p => forallb (fun q => negb ((p <? q) && stretchb s p q) || ltb (skipn p s) (skipn q s)) (seq 0 (length s))) (seq 0 (length s)).
Lemma firstb_ok : forall s, firstb s = true -> (forall p q, valley s p -> valley s q -> same_stretch s p q -> p = q) /\ (forall p q, p < q -> q < length s -> same_stretch s p q -> lex_lt (skipn p s) (skipn q s)).
Proof.
  intros s H. apply andb_prop in H. destruct H as [H1 H2]. rewrite !forallb_forall in *. split.
  - intros p q P Q E. assert (Bp : p <= length s) by apply P. assert (Bq : q <= length s) by apply Q. specialize (H1 p ltac:(apply in_seq; lia)). rewrite forallb_forall in H1. specialize (H1 q ltac:(apply in_seq; lia)).
    apply valleyb_spec in P, Q. apply stretchb_spec in E. rewrite P, Q, E in H1. cbn [andb negb orb] in H1. now apply Nat.eqb_eq.
  - intros p q PQ Q E. specialize (H2 p ltac:(apply in_seq; lia)). rewrite forallb_forall in H2. specialize (H2 q ltac:(apply in_seq; lia)). apply stretchb_spec in E. rewrite E in H2. apply Nat.ltb_lt in PQ. rewrite PQ in H2. cbn [andb negb orb] in H2. now apply ltb_spec.
Qed.
Lemma firstb_sortable : forall s, firstb s = true -> sortable s.
Proof. intros s H. destruct (firstb_ok s H). apply sortable_first; auto. Qed.
(** the valleys before the end *)
Lemma sorted_unique : forall a b, StronglySorted lt a -> StronglySorted lt b -> (forall x, In x a <-> In x b) -> a = b.
Proof.
  induction a as [|x a IH]; intros [|y b] Sa Sb H; auto; [destruct (proj2 (H y) (or_introl eq_refl))|destruct (proj1 (H x) (or_introl eq_refl))|].
  inversion Sa as [|? ? Sa' Fa]; inversion Sb as [|? ? Sb' Fb]; subst. rewrite Forall_forall in Fa, Fb.
  assert (x = y). { destruct (proj1 (H x) (or_introl eq_refl)) as [|X]; auto. destruct (proj2 (H y) (or_introl eq_refl)) as [|Y]; auto. specialize (Fa y Y). specialize (Fb x X). lia. }
  subst y. f_equal. apply IH; auto. intros z. split; intros Z.
  - destruct (proj1 (H z) (or_intror Z)) as [<-|]; auto. specialize (Fa x Z). lia.
  - destruct (proj2 (H z) (or_intror Z)) as [<-|]; auto. specialize (Fb x Z). lia.
Qed.
Lemma valleys_list : forall s vs, StronglySorted lt vs -> (forall i, In i vs <-> valley s i /\ i < length s) -> vs = filter (valleyb s) (seq 0 (length s)).
Proof.
  intros s vs SV IV. apply sorted_unique; auto.
  - assert (G : forall k a, StronglySorted lt (filter (valleyb s) (seq a k))). { induction k as [|k IH]; intros a; [constructor|]. cbn [seq filter]. destruct (valleyb s a); auto. constructor; auto. apply Forall_forall. intros x X. apply filter_In in X. destruct X as [X _]. apply in_seq in X. lia. }
    apply G.
  - intros x. rewrite IV, filter_In, in_seq, valleyb_spec. intuition lia.
Qed.
