(** Specifications for C108 on. *)
From Coq Require Import List NArith Arith.
From Verif Require Import Spec4.
Import ListNotations.
Local Open Scope nat_scope.

(** C108: a table of 2^bb buckets stores the key bits beyond the lowest bb, and four flags, in words of at most 63 bits *)
Definition keys_fit (kb bb : nat) : Prop := kb <= 63 /\ kb - bb + 4 <= 63.
(** reserve(n) makes room for n entries at a load of L per cent (99 / L times as many buckets, rounded up to a power of two);
    for keys of more than 60 bits that has to be more than 2^(kb-60) buckets *)
Definition reserve_fits (kb L : nat) (o : map_op) : Prop :=
  match o with MapSet _ _ => True | MapReserve n => n = 0 \/ kb <= 60 \/ 2 ^ (kb - 60) <= n * 99 / L end.
