(** Statement vocabulary of C104: what the portable select returns. *)
From Coq Require Import List NArith Arith Bool.
From Verif Require Import Spec.
Import ListNotations.
Local Open Scope nat_scope.

(** The ones of the lower 32 bits which the portable count misses: 15 if the lower nibbles of the four bytes are full and at most
    14 other bits are set, 31 if the lower nibbles are full and at least 15 others set, 16 if only the upper nibbles are full. *)
Definition lost_ones (x : N) : nat :=
  if (N.land x 0x0F0F0F0F =? 0x0F0F0F0F)%N then if ones_below 32 x <? 31 then 15 else 31
  else if (N.land x 0xF0F0F0F0 =? 0xF0F0F0F0)%N then 16 else 0.
