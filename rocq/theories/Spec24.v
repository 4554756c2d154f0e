(** Independent specifications, twenty-fourth part: a window read backwards through an automaton (C124). *)
From Coq Require Import List NArith Arith.
From Verif Require Import Spec20.
Import ListNotations.
Local Open Scope nat_scope.

(** the automaton with last state m, continued by the bytes that stand behind its text in memory *)
Definition continued (E : nat -> N -> nat -> Prop) (m : nat) (beyond : list N) (s : nat) (c : N) (t : nat) : Prop :=
  E s c t \/ (m <= s /\ t = S s /\ nth_error beyond (s - m) = Some c).
(** the m characters from position x on, from right to left *)
Definition window (text : list N) (m x : nat) : list N := rev (firstn m (skipn x text)).
(** exactly k characters of the window at x can be read, and lead to state s *)
Definition reads (X : nat -> N -> nat -> Prop) (text : list N) (m x k s : nat) : Prop :=
  k <= m /\ run X 0 (firstn k (window text m x)) s /\ forall c t, nth_error (window text m x) k = Some c -> ~ X s c t.
(** where the next window begins if k characters of the one at x could be read *)
Definition next_window (m x k : nat) : nat := if k =? m then x + 1 else x + (m - k).
(** the windows inspected, beginning with the one at a *)
Inductive visited (X : nat -> N -> nat -> Prop) (text : list N) (m a : nat) : nat -> Prop :=
| visited_first : a + m <= length text -> visited X text m a a
| visited_next : forall x k s, visited X text m a x -> reads X text m x k s -> next_window m x k + m <= length text -> visited X text m a (next_window m x k).
(** reading stops before the end of the window, in a state in which there is nothing more to read in memory, or that the automaton does not have *)
Definition falls_off (beyond : list N) (m k s : nat) : Prop := k < m /\ (m < s \/ s = m /\ beyond = []).
