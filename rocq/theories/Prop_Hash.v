(** Property C40 (BijectiveHash.hpp). *)
From Coq Require Import List NArith ZArith Lia Bool Arith.
From Verif Require Import Base HashModel HashProof.
Import ListNotations.
Local Open Scope N_scope.

(** ** C40: widths below 64 *)
Theorem C40_bijection_partial : forall w x, w < 64 -> x < 2 ^ w ->
  (exists y, sm_hash w x = Ok y /\ y < 2 ^ w /\ sm_ihash w y = Ok x) /\ (exists y, sm_ihash w x = Ok y /\ y < 2 ^ w /\ sm_hash w y = Ok x).
Proof. exact sm_inverse. Qed.
Print Assumptions C40_bijection_partial.
(** The default width 64 reads a row the table does not have *)
Theorem C40_width64_refuted : exists x, x < 2 ^ 64 /\ sm_hash 64 x = UB /\ sm_ihash 64 x = UB.
Proof. exists 5. split; [vm_compute; reflexivity|]. split; vm_compute; reflexivity. Qed.
Print Assumptions C40_width64_refuted.
Example C40_ex : sm_hash 20 0x12345 = Ok 932567 /\ sm_ihash 20 932567 = Ok 0x12345.
Proof. split; vm_compute; reflexivity. Qed.
