(** C114: the automaton of FactorOracle is the factor oracle of the text. *)
From Coq Require Import List NArith ZArith Arith Bool.
From Verif Require Import Base Spec4 Spec20 FoModel FoExact.
Import ListNotations.
Local Open Scope nat_scope.

Theorem C114_oracle : forall fuel text o, Forall (fun c => (0 < c < 256)%N) text -> fo_build fuel text = Ok o ->
  exists E, factor_oracle text E /\ forall w, bytes_below 256 w ->
    (fo_accept [] o w = Ok true <-> exists s, run E 0 w s) /\
    (fo_accept [] o w = UB <-> exists v c x, w = v ++ c :: x /\ run E 0 v (length text)) /\
    (fo_accept [] o w = Ok false <-> ~ (exists s, run E 0 w s) /\ ~ exists v c x, w = v ++ c :: x /\ run E 0 v (length text)).
Proof. exact oracle_exact. Qed.
Print Assumptions C114_oracle.
Theorem C114_unique : forall text E E', factor_oracle text E -> factor_oracle text E' -> forall s c t, E s c t <-> E' s c t.
Proof. exact oracle_unique. Qed.
Print Assumptions C114_unique.
Example C114_example : Forall (fun c => (0 < c < 256)%N) [97; 98; 98; 98; 97; 97; 98]%N /\ exists o, fo_build 300 [97; 98; 98; 98; 97; 97; 98]%N = Ok o /\
  fo_accept [] o [97; 98; 97]%N = Ok true /\ fo_accept [] o [97; 97; 98; 98]%N = UB /\ fo_accept [] o [97; 97; 97]%N = Ok false.
Proof. split; [repeat constructor|]. eexists. split; [vm_compute; reflexivity|]. repeat split; vm_compute; reflexivity. Qed.
