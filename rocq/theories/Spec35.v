(** Rounding to a float, and what a turbo matcher with windows of a given size can miss, independent of the models. *)
From Coq Require Import List NArith ZArith Arith.
From Verif Require Import Spec4.
Import ListNotations.

(** whole numbers with a significand of 24 bits *)
Definition float_number (x : N) : Prop := exists q e, (q <= 2 ^ 24 /\ x = q * 2 ^ e)%N.
(** [y] is a nearest one to [x], and of two nearest ones that whose last bit is zero: an even multiple of their distance *)
Definition rounds_to (x y : N) : Prop :=
  float_number y /\ (forall z, float_number z -> (Z.abs (Z.of_N x - Z.of_N y) <= Z.abs (Z.of_N x - Z.of_N z))%Z) /\
  forall z, float_number z -> z <> y -> Z.abs (Z.of_N x - Z.of_N y)%Z = Z.abs (Z.of_N x - Z.of_N z)%Z -> exists k d, (Z.of_N y = 2 * k * d /\ Z.abs (Z.of_N z - Z.of_N y) = d)%Z.

(** TurboSpec.overlapped for windows of [h] characters in place of half the key *)
Definition overlapped_by (h : nat) (key text : list N) (x : nat) : Prop :=
  exists d, 1 <= d <= x /\ d + 2 <= h /\ occurs_at key text (x - d) = false /\
    forall j, j <= d + (length key - h) -> nth (x - d + j) text 0%N = nth j key 0%N.
