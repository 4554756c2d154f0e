(** C110: shifts_of_conflicts_. *)
From Coq Require Import NArith ZArith Lia.
From Verif Require Import Base Spec Spec16 SamcShiftModel SamcShift.
Local Open Scope N_scope.

Theorem C110_shifts : forall F M, F < 2 ^ 64 -> M < 2 ^ 64 -> N.land F M <> 0 -> exists p a b, lowest_one (N.land F M) p /\ ones_upward F p a /\ ones_downward M p b /\
  soc_body F M (N.land F M) = Ok (a + b - 1) /\ 1 <= a + b - 1 /\ forall s, s < a + b - 1 -> N.land F (N.shiftl M s) <> 0.
Proof. exact soc_exact. Qed.
Print Assumptions C110_shifts.
Example C110_shifts_example : N.land 0x73C 0xDF0 <> 0 /\ soc_body 0x73C 0xDF0 (N.land 0x73C 0xDF0) = Ok 2 /\ N.land 0x73C (N.shiftl 0xDF0 1) <> 0 /\ soc_body 0xF0 0x3F (N.land 0xF0 0x3F) = Ok 8 /\ N.land 0xF0 (N.shiftl 0x3F 7) <> 0 /\ N.land 0xF0 (N.shiftl 0x3F 8) = 0.
Proof. vm_compute. repeat split; discriminate. Qed.
Theorem C110_no_conflict : forall F M, soc_body F M 0 = UB.
Proof. exact soc_zero. Qed.
Print Assumptions C110_no_conflict.
Theorem C110_assertion : forall F M C, soc_debug F M C = Throw <-> C <> N.land F M.
Proof. exact soc_assert. Qed.
Print Assumptions C110_assertion.
Example C110_assertion_example : soc_debug 0xF0 0x3F 0x30 = Ok 8 /\ soc_debug 0xF0 0x3F 0x10 = Throw /\ soc_debug 0xF0 0x0F 0 = UB.
Proof. vm_compute. auto. Qed.
