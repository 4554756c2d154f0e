(** The figures describing a list of numbers, said with the list alone. *)
From Coq Require Import List NArith ZArith Arith.
From Verif Require Import Spec.
Import ListNotations.
Local Open Scope nat_scope.

(** the 64-bit two's complement number with the low bits of [z] *)
Definition signed64 (z : Z) : Z := ((z + 2 ^ 63) mod 2 ^ 64 - 2 ^ 63)%Z.
Definition total (l : list N) : N := fold_right N.add 0%N l.
Definition greatest (l : list N) (m : N) : Prop := Forall (fun x => (x <= m)%N) l /\ In m l.
(** the member with at most half of the list below it and more than half of the list not above it *)
Definition upper_median (l : list N) (m : N) : Prop :=
  In m l /\ count_if (fun x => (x <? m)%N) l <= length l / 2 < count_if (fun x => (x <=? m)%N) l.
(** how many members take one bit, two bits, … *)
Definition per_width (l : list N) : list nat := map (fun k => count_if (fun v => bits_needed v =? S k) l) (seq 0 (max_bits l)).
