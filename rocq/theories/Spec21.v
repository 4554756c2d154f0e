(** Specifications for C116 on. *)
From Coq Require Import List NArith Arith.
From Verif Require Import Spec4.
Import ListNotations.
Local Open Scope nat_scope.

(** C116: no reserve of the history asks for more entries than the table has at that moment *)
Definition never_reserves (ops : list map_op) : Prop := forall pre n post, ops = pre ++ MapReserve n :: post -> n <= distinct_keys pre.
(** until the first such reserve at most [c] different keys are stored *)
Definition fills_at_most (c : nat) (ops : list map_op) : Prop := forall pre post, ops = pre ++ post -> never_reserves pre -> distinct_keys pre <= c.
