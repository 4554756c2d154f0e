(** Specifications, part 22: sequences of signed numbers. *)
From Coq Require Import List NArith ZArith.
Import ListNotations.

(** a value of a signed type of at most 64 bits *)
Definition signed_value (x : Z) : Prop := (- 2 ^ 63 <= x < 2 ^ 63)%Z.
(** the greatest element of a list *)
Definition greatest (m : Z) (l : list Z) : Prop := In m l /\ forall x, In x l -> (x <= m)%Z.
(** the low [w] bits of a number in two's complement *)
Definition low_bits (w : nat) (x : Z) : N := Z.to_N (x mod 2 ^ Z.of_nat w).
