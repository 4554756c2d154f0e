(** What the turbo variant of the backward oracle matcher can miss, said with the text and the key alone. *)
From Coq Require Import List NArith Arith.
From Verif Require Import Spec4.
Import ListNotations.
Local Open Scope nat_scope.

(** the occurrence at x is overlapped by an earlier partial one: the key does not occur at x - d, but more than half of it does, and that part reaches beyond the middle of the occurrence at x *)
Definition overlapped (key text : list N) (x : nat) : Prop :=
  exists d, 1 <= d <= x /\ d + 2 <= length key / 2 /\ occurs_at key text (x - d) = false /\
    forall j, j <= d + (length key - length key / 2) -> nth (x - d + j) text 0%N = nth j key 0%N.
(** no long prefix of the key has a short period: with period d the prefix would have d + ceil(m/2) + 1 characters *)
Definition no_short_period (key : list N) : Prop :=
  forall d, 1 <= d -> d + 2 <= length key / 2 -> exists j, j <= length key - length key / 2 /\ nth j key 0%N <> nth (d + j) key 0%N.
