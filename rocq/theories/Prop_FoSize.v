(** C131: the size of the factor oracle. *)
From Coq Require Import List NArith ZArith Arith Bool.
From Verif Require Import Base Spec20 Spec28 FoModel FoSize.
Import ListNotations.
Local Open Scope nat_scope.

Theorem C131_size : forall fuel text o, Forall (fun c => (0 < c < 256)%N) text -> fo_build fuel text = Ok o ->
  exists E L, factor_oracle text E /\ NoDup L /\ (forall s c t, In (s, c, t) L <-> E s c t) /\ length text <= length L <= 2 * length text - 1 /\
    length (fo_base o) = length text + 1 /\ length (filter taken (fo_next o)) = length L - length text /\
    exists q, length (fo_next o) = 256 * q /\ (length text + 255) / 256 <= q <= (length text + 255) / 256 + (length L - length text).
Proof. exact oracle_size. Qed.
Print Assumptions C131_size.
(** both ends of the range are reached *)
Example C131_example : (exists o, fo_build 300 [97; 98; 99; 100]%N = Ok o /\ length (fo_next o) = 256 /\ length (filter taken (fo_next o)) = 3) /\
  exists o, fo_build 300 [97; 97; 97; 97]%N = Ok o /\ length (filter taken (fo_next o)) = 0.
Proof. split; (eexists; split; [vm_compute; reflexivity|]); vm_compute; auto. Qed.
