(** Specification for the printing of binary digits. *)
From Coq Require Import List NArith ZArith Ascii.
Import ListNotations.

Definition newline : ascii := Ascii.ascii_of_nat 10.
(** the digits of byte number [b] of the two's complement notation of [v], the highest first *)
Definition byte_digits (v : Z) (b : nat) : list ascii :=
  map (fun i => if Z.testbit v (Z.of_nat (8 * b + i)) then "1"%char else "0"%char) [7; 6; 5; 4; 3; 2; 1; 0].
(** the lowest [m] bytes of [v], the highest first, each followed by a space, and the end of the line *)
Definition binary_line (v : Z) (m : nat) : list ascii :=
  concat (map (fun b => byte_digits v b ++ [" "%char]) (rev (seq 0 m))) ++ [newline].
(** the values of an integer type of [w] bits *)
Definition in_type (w : Z) (signed : bool) (v : Z) : Prop :=
  if signed then (- 2 ^ (w - 1) <= v < 2 ^ (w - 1))%Z else (0 <= v < 2 ^ w)%Z.
