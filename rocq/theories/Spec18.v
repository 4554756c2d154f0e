(** Specification for the arrays with constant-time fill, refined (C112). *)
From Coq Require Import List Arith Bool.
From Verif Require Import Spec3.
Import ListNotations.

(** whether one of the elements 2b, 2b+1 was set since the last fill; the history has the most recent operation first *)
Fixpoint pair_written {A} (rev_ops : list (ia_op A)) (b : nat) : bool :=
  match rev_ops with
  | [] => false
  | IAFill _ :: _ => false
  | IASet j _ :: r => (j / 2 =? b) || pair_written r b
  end.
(** how many of the first [m] pairs were *)
Definition pairs_written {A} (rev_ops : list (ia_op A)) (m : nat) : nat := length (filter (pair_written rev_ops) (seq 0 m)).
