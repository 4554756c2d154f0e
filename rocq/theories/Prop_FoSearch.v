(** C158: how many slots the searches of the factor oracle for a base try. *)
From Coq Require Import List NArith ZArith Arith Bool.
From Verif Require Import Base FoModel FoWitness FoSearch.
Import ListNotations.
Local Open Scope nat_scope.

(** the first argument of fo_build is the number of slots that each _find_base may try *)
Theorem C158_search : forall fuel text o, Forall (fun c => (0 < c < 256)%N) text -> fo_build fuel text = Ok o -> fo_build (512 * length text + 257) text = Ok o.
Proof. exact search_enough. Qed.
Print Assumptions C158_search.
Example C158_search_ex : exists o, fo_build 20 [97; 98; 98; 97; 97; 98]%N = Ok o /\ fo_build (512 * 6 + 257) [97; 98; 98; 97; 97; 98]%N = Ok o.
Proof. eexists. split; vm_compute; reflexivity. Qed.

Theorem C158_decides : forall text, text <> [] -> Forall (fun c => (0 < c < 256)%N) text ->
  (exists o, forall fuel, 512 * length text + 257 <= fuel -> fo_build fuel text = Ok o) \/ forall fuel, fo_build fuel text = Fuel.
Proof. exact search_decides. Qed.
Print Assumptions C158_decides.
(** both cases occur *)
Example C158_decides_ex : (exists o, fo_build 20 [97; 98; 98; 97; 97; 98]%N = Ok o) /\ forall fuel, fo_build fuel w80 = Fuel.
Proof. split; [eexists; vm_compute; reflexivity|exact w80_diverges]. Qed.
