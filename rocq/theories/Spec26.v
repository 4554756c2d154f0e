(** Specification for C126. *)
From Coq Require Import List NArith ZArith Arith Bool.
From Verif Require Import Base Spec.
Import ListNotations.
Local Open Scope nat_scope.

(** what a count becomes that is kept in an int of 32 bits and then used as a size of 64 bits *)
Definition through_int (c : N) : N :=
  (if c mod 2 ^ 32 <? 2 ^ 31 then c mod 2 ^ 32 else 2 ^ 64 - 2 ^ 32 + c mod 2 ^ 32)%N.
(** the number of values that need more than [t] bits *)
Definition longer_than (t : nat) (l : list N) : nat := count_if (fun v => t <? bits_needed v) l.
(** the count of some level comes out negative *)
Definition negative_level (widths : list nat) (l : list N) : Prop :=
  exists i, i < length widths /\ (2 ^ 31 <= N.of_nat (longer_than (list_sum_nat (firstn i widths)) l) mod 2 ^ 32)%N.
(** the least multiple of [b] that is at least [n] *)
Definition is_rounded_up (n b r : nat) : Prop := r mod b = 0 /\ n <= r < n + b.
