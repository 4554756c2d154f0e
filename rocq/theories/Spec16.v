(** Specification for the trie with every size type. *)
From Coq Require Import List NArith.
Import ListNotations.

(** a longer key continues [k] with a zero byte *)
Definition zero_continues {A} (ops : list (list N * A)) (k : list N) : Prop := exists r x, In (k ++ 0%N :: r, x) ops.
(** some item was inserted for [k] *)
Definition was_inserted {A} (ops : list (list N * A)) (k : list N) : Prop := exists x, In (k, x) ops.

(** the ones of [F] from position [p] upwards without a gap are [n] *)
Definition ones_upward (F p n : N) : Prop := (forall j, (j < n)%N -> N.testbit F (p + j) = true) /\ N.testbit F (p + n) = false.
(** the ones of [M] from position [p] downwards without a gap are [n] *)
Definition ones_downward (M p n : N) : Prop := (n <= p + 1)%N /\ (forall j, (j < n)%N -> N.testbit M (p - j) = true) /\ (n = p + 1 \/ N.testbit M (p - n) = false)%N.
