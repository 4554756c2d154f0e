(** Counting what a computation does: a counter is passed through beside the outcome of Base.v.
    Nothing here models a particular function of the library. *)
From Coq Require Import List NArith Arith Bool Lia.
From Verif Require Import Base.
Import ListNotations.
Local Open Scope nat_scope.

Definition cres (A : Type) : Type := nat -> res (nat * A).
Definition cret {A} (a : A) : cres A := fun k => Ok (k, a).
Definition cbind {A B} (m : cres A) (f : A -> cres B) : cres B := fun k => do r <- m k; f (snd r) (fst r).
(** not counted, counted once *)
Definition free {A} (r : res A) : cres A := fun k => do a <- r; Ok (k, a).
Definition paid {A} (r : res A) : cres A := fun k => do a <- r; Ok (S k, a).
Declare Scope cres_scope.
Notation "'count' x <- m ; k" := (cbind m (fun x => k))
  (at level 200, x pattern, m at level 100, k at level 200, right associativity) : cres_scope.
Open Scope cres_scope.
(** counting from zero *)
Definition counted {A} (m : cres A) : res (nat * A) := m 0.

(** [m] does what [r] does, with at most [c] counted steps *)
Definition costs {A} (m : cres A) (r : res A) (c : nat) : Prop := forall k,
  match m k, r with
  | Ok (k', x), Ok y => x = y /\ k' <= k + c
  | UB, UB | Throw, Throw | Fuel, Fuel => True
  | _, _ => False
  end.
Lemma costs_ret A (a : A) c : costs (cret a) (Ok a) c.
Proof. intros k. cbn. split; [reflexivity|lia]. Qed.
Lemma costs_free A (r : res A) c : costs (free r) r c.
Proof. intros k. unfold free. destruct r; cbn; auto. split; [reflexivity|lia]. Qed.
Lemma costs_paid A (r : res A) c : costs (paid r) r (S c).
Proof. intros k. unfold paid. destruct r; cbn; auto. split; [reflexivity|lia]. Qed.
Lemma costs_le A (m : cres A) r c c' : costs m r c -> c <= c' -> costs m r c'.
Proof. intros H L k. specialize (H k). destruct (m k) as [[k' x]| | |], r; auto. destruct H. split; [assumption|lia]. Qed.
Lemma costs_bind A B (m : cres A) r c (f : A -> cres B) g c' :
  costs m r c -> (forall x, r = Ok x -> costs (f x) (g x) c') -> costs (cbind m f) (bind r g) (c + c').
Proof.
  intros H F k. specialize (H k). unfold cbind. destruct (m k) as [[k' x]| | |], r as [y| | |]; cbn; try contradiction; auto.
  destruct H as [-> H]. specialize (F y eq_refl k'). destruct (f y k') as [[k'' z]| | |], (g y); auto. destruct F. split; [assumption|lia].
Qed.
Lemma costs_same A (m : cres A) r c : costs m r c -> rmap snd (counted m) = r.
Proof. intros H. specialize (H 0). unfold counted. destruct (m 0) as [[k x]| | |], r; cbn; try contradiction; auto. destruct H as [-> _]. reflexivity. Qed.
Lemma costs_bound A (m : cres A) r c k x : costs m r c -> counted m = Ok (k, x) -> k <= c.
Proof. intros H E. specialize (H 0). unfold counted in E. rewrite E in H. destruct r; cbn in H; try contradiction. lia. Qed.
Lemma costs_both A (m : cres A) r c : costs m r c -> rmap snd (counted m) = r /\ forall k x, counted m = Ok (k, x) -> k <= c.
Proof. intros H. split; [exact (costs_same _ _ _ _ H)|]. intros k x. exact (costs_bound _ _ _ _ _ _ H). Qed.
