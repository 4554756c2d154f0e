(** Independent specifications, twentieth part: the factor oracle of a text (C114). *)
From Coq Require Import List NArith Arith.
Import ListNotations.
Local Open Scope nat_scope.

(** the words that lead from one state to another; [E s c t] is a transition from s to t over c *)
Inductive run (E : nat -> N -> nat -> Prop) : nat -> list N -> nat -> Prop :=
| run_nil : forall s, run E s [] s
| run_cons : forall s c t w u, E s c t -> run E t w u -> run E s (c :: w) u.
Definition shortest (E : nat -> N -> nat -> Prop) (s : nat) (u : list N) : Prop := run E 0 u s /\ forall v, run E 0 v s -> length u <= length v.
(** the first t characters of the text end with w *)
Definition ends_at (text w : list N) (t : nat) : Prop := t <= length text /\ exists a, firstn t text = a ++ w.
Definition first_end (text w : list N) (t : nat) : Prop := ends_at text w t /\ forall t', ends_at text w t' -> t <= t'.
(** Allauzen, Crochemore, Raffinot (1999): the states are the positions of the text; besides the transitions along the text, a state s with the shortest word u has a transition over c to the end of the first occurrence of uc *)
Definition factor_oracle (text : list N) (E : nat -> N -> nat -> Prop) : Prop :=
  (forall s c t, E s c t -> s < t) /\
  forall s c t, E s c t <-> (nth_error text s = Some c /\ t = s + 1) \/ (nth_error text s <> Some c /\ exists u, shortest E s u /\ first_end text (u ++ [c]) t).
