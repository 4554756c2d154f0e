(** Specification for the trie with a size type of any width. *)
From Coq Require Import List NArith Arith.
From Verif Require Import Spec5.
Import ListNotations.

(** the number of different strings which a trie with these keys, each ended by a zero byte, has to tell apart *)
Definition prefix_count {A} (ops : list (list N * A)) (n : nat) : Prop := exists ps, NoDup ps /\ length ps = n /\ forall p, In p ps <-> key_prefix ops p.
(** the number of values from 0 upwards of an integer type *)
Definition values_from_0 (signed : bool) (bits : N) : N := if signed then 2 ^ (bits - 1) else 2 ^ bits.
