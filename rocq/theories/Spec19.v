(** Specification for the hash function on numbers outside its range (C113). *)
From Coq Require Import NArith.
Local Open Scope N_scope.

(** [x >> h ^ x] *)
Definition xor_shift (h x : N) : N := N.lxor x (N.shiftr x h).
(** the number below 2^w hashed in place of [x]: the upper half is folded into the lower before the number is cut to [w] bits and unfolded again *)
Definition folded (w x : N) : N := let h := (w + 1) / 2 in xor_shift h (xor_shift h x mod 2 ^ w).
