(** C157: how many lookups and insertions it takes to build the factor oracle. *)
From Coq Require Import List NArith ZArith Arith Bool.
From Verif Require Import Base CostBase Spec20 Spec28 FoModel FoCostModel FoCost.
Import ListNotations.
Local Open Scope nat_scope.

Theorem C157_calls : forall fuel text k o, Forall (fun c => (0 < c < 256)%N) text -> counted (fo_build_c fuel text) = Ok (k, o) ->
  exists E L, factor_oracle text E /\ NoDup L /\ (forall s c t, In (s, c, t) L <-> E s c t) /\ k + 2 * length (nodup N.eq_dec text) = 2 * length L /\ 2 * length text <= k + 2 /\ k + 4 <= 4 * length text.
Proof. exact build_calls. Qed.
Print Assumptions C157_calls.

(** the counting changes nothing else, undefined behaviour and the search without end included *)
Theorem C157_same : forall fuel text, rmap snd (counted (fo_build_c fuel text)) = fo_build fuel text.
Proof. exact build_uncounted. Qed.
Print Assumptions C157_same.

(** "abbbaab": 7 + 4 transitions, 2 letters; "aaaa": the fewest; "abcdd" *)
Example C157_ex : rmap fst (counted (fo_build_c 300 [97; 98; 98; 98; 97; 97; 98]%N)) = Ok 18 /\ rmap fst (counted (fo_build_c 300 [97; 97; 97; 97]%N)) = Ok 6 /\ rmap fst (counted (fo_build_c 300 [97; 98; 99; 100; 100]%N)) = Ok 8.
Proof. vm_compute. auto. Qed.
