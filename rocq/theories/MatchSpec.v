(** Independent specification of the windows a matcher looks at (C81) *)
From Coq Require Import List NArith Arith.
From Verif Require Import Spec4.
Import ListNotations.
Local Open Scope nat_scope.

(** [j] is the last position below [k] at which the key has the character [c] *)
Definition last_below (key : list N) (k : nat) (c : N) (j : nat) : Prop :=
  j < k /\ nth j key 0%N = c /\ forall x, j < x < k -> nth x key 0%N <> c.
Definition absent_below (key : list N) (k : nat) (c : N) : Prop := forall j, j < k -> nth j key 0%N <> c.

(** Horspool: the window ending at [i] slides until its last character meets the same character of the key,
    the last character of the key aside *)
Inductive bm_reaches (key text : list N) : nat -> nat -> Prop :=
| BMHere i : bm_reaches key text i i
| BMSlide i j w : i < length text -> last_below key (length key - 1) (nth i text 0%N) j ->
    bm_reaches key text (i + (length key - 1 - j)) w -> bm_reaches key text i w
| BMJump i w : i < length text -> absent_below key (length key - 1) (nth i text 0%N) ->
    bm_reaches key text (i + length key) w -> bm_reaches key text i w.

(** Sunday: the window starting at [i] slides until the character behind it meets the same character of the key *)
Inductive qs_reaches (key text : list N) : nat -> nat -> Prop :=
| QSHere i : qs_reaches key text i i
| QSSlide i j w : i + length key < length text -> last_below key (length key) (nth (i + length key) text 0%N) j ->
    qs_reaches key text (i + (length key - j)) w -> qs_reaches key text i w
| QSJump i w : i + length key < length text -> absent_below key (length key) (nth (i + length key) text 0%N) ->
    qs_reaches key text (i + (length key + 1)) w -> qs_reaches key text i w.

(** KMP compares the character behind an occurrence ending at [e] with the byte behind the key; this goes wrong if
    there is no such byte or if they are equal *)
Definition escapes (beyond text key : list N) (e : nat) : Prop :=
  length key <= e < length text /\ occurs_at key text (e - length key) = true /\
  match beyond with [] => True | z :: _ => z = nth e text 0%N end.
Definition begins_with (l p : list N) : Prop := exists r, l = p ++ r.
