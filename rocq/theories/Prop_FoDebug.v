(** C90: the factor oracle in a build with assertions on. *)
From Coq Require Import List NArith ZArith Arith Bool.
From Verif Require Import Base FoModel FoDebugModel FoProof FoWitness FoDebug.
Import ListNotations.
Local Open Scope nat_scope.

(** The construction always ends when assertions are on: an assertion fails exactly for the texts on which the construction without them runs for ever, and otherwise both build the same automaton. *)
Theorem C90_assertions : forall text, text <> [] -> Forall (fun c => (0 < c < 256)%N) text -> exists enough, forall fuel, enough <= fuel ->
  (exists o, fo_build fuel text = Ok o /\ fo_build_d fuel text = Ok o) \/ (fo_build_d fuel text = Throw /\ forall f, fo_build f text = Fuel).
Proof. exact debug_build. Qed.
Print Assumptions C90_assertions.
Example C90_passes : exists o, fo_build 300 [97; 98; 98; 97; 99; 98; 99; 100]%N = Ok o /\ fo_build_d 300 [97; 98; 98; 97; 99; 98; 99; 100]%N = Ok o.
Proof. eexists. split; vm_compute; reflexivity. Qed.
Example C90_fails : w80 <> [] /\ Forall (fun c => (0 < c < 256)%N) w80 /\ exists n, forall fuel, n <= fuel -> fo_build_d fuel w80 = Throw.
Proof. split; [discriminate|]. split; [exact w80_bytes|exact w80_asserts]. Qed.
Theorem C90_exactly_when : forall text, text <> [] -> Forall (fun c => (0 < c < 256)%N) text -> exists enough, forall fuel, enough <= fuel ->
  (fo_build_d fuel text = Throw <-> forall f, fo_build f text = Fuel) /\ (forall o, fo_build_d fuel text = Ok o <-> exists f, fo_build f text = Ok o).
Proof. exact debug_iff. Qed.
Print Assumptions C90_exactly_when.
