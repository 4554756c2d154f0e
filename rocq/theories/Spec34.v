(** What C142 speaks of. *)
From Coq Require Import List NArith Arith.
From Verif Require Import Spec4.
Import ListNotations.
Local Open Scope nat_scope.

(** the calls of reserve in a history of a map *)
Definition reserves (ops : list map_op) : nat := length (filter (fun o => match o with MapReserve _ => true | MapSet _ _ => false end) ops).
