(** C113: SplitMixHash for every width and argument. *)
From Coq Require Import List NArith Lia.
From Verif Require Import Base Spec19 HashModel HashExact.
Local Open Scope N_scope.

Theorem C113_hash : forall w x, w < 64 -> exists y, sm_hash w x = Ok y /\ y < 2 ^ w /\ sm_ihash w y = Ok (folded w x).
Proof. exact hash_every. Qed.
Print Assumptions C113_hash.
Theorem C113_ihash : forall w x, w < 64 -> exists y, sm_ihash w x = Ok y /\ y < 2 ^ w /\ sm_hash w y = Ok (x mod 2 ^ w).
Proof. exact ihash_every. Qed.
Print Assumptions C113_ihash.
Theorem C113_collisions : forall w x y, w < 64 -> (sm_hash w x = sm_hash w y <-> folded w x = folded w y).
Proof. exact hash_collide. Qed.
Print Assumptions C113_collisions.
Theorem C113_round_trip : forall w x, w < 64 -> ((do y <- sm_hash w x; sm_ihash w y) = Ok x <-> x < 2 ^ w) /\ ((do y <- sm_ihash w x; sm_hash w y) = Ok x <-> x < 2 ^ w).
Proof. exact round_trip_iff. Qed.
Print Assumptions C113_round_trip.
Theorem C113_wide : forall w x, 64 <= w -> sm_hash w x = UB /\ sm_ihash w x = UB.
Proof. exact wide_UB. Qed.
Print Assumptions C113_wide.
(** 0x195 does not fit into 8 bits and is hashed like 0x84 *)
Example C113_example : folded 8 0x195 = 0x84 /\ folded 8 0x95 = 0x95 /\ sm_hash 8 0x195 = sm_hash 8 0x84 /\ sm_hash 8 0x195 <> sm_hash 8 0x95 /\ sm_hash 64 0x195 = UB.
Proof. vm_compute. repeat split; discriminate. Qed.
