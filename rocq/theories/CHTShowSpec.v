(** The slot where the search for a key starts (C156). *)
From Coq Require Import NArith.
From Verif Require Import Base HashModel.

(** the hash value of the key, reduced to the number of slots *)
Definition home (kb slots : nat) (k : N) : nat := N.to_nat ((match sm_hash (N.of_nat kb) k with Ok h => h | _ => 0 end) mod N.of_nat slots).
