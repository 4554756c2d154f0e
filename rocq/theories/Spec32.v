(** What the memory of the other containers is compared with. *)
From Coq Require Import List NArith Arith.
From Verif Require Import Spec4 Spec31.
Import ListNotations.
Local Open Scope nat_scope.

(** the largest number of entries asked for in a history *)
Definition asked (ops : list map_op) : nat :=
  fold_right Nat.max 0 (map (fun o => match o with MapSet _ _ => 0 | MapReserve n => n end) ops).
(** words of a compact table of 2^b slots: what is left of a key of kb bits, four marks and a value of vw bits in each *)
Definition table_words (kb vw b : nat) : N :=
  (words_for (2 ^ N.of_nat b * N.of_nat (kb - b + 4)) + words_for (2 ^ N.of_nat b * N.of_nat vw))%N.
(** words of a bit vector of n bits, which holds at least one, and of its directory *)
Definition bits_words (n : N) : N := N.max 1 (words_for n).
Definition indexed_words (n : N) : N := (bits_words n + 2 * (n / 512 + 1))%N.
