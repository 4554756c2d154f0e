(** C125: the windows SundayMS inspects, and when it is undefined. *)
From Coq Require Import List NArith ZArith Arith Bool Permutation Sorted Lia.
From Verif Require Import Base Spec4 MatchSpec Spec25 PatternModel MsExact.
Import ListNotations.
Local Open Scope nat_scope.

Theorem C125_order : forall key, exists order, scan_order key order /\ forall order', scan_order key order' -> order' = order.
Proof. exact order_exists. Qed.
Print Assumptions C125_order.
Theorem C125_ms : forall text key order, bytes_below 256 text -> (N.of_nat (length text) < 2 ^ 64)%N -> (N.of_nat (length key) < 2 ^ 64)%N -> scan_order key order ->
  (match_ms text key = UB \/ match_ms text key = Ok (occurrences key text)) /\
  (match_ms text key = UB <-> ~ bytes_below 128 key \/ length text < length key \/ exists w, ms_reaches key text order 0 w /\ w + length key < length text /\ nth (w + length key) text 0%N = 255%N).
Proof. exact ms_windows. Qed.
Print Assumptions C125_ms.
(** "abba": its second b is compared before the first *)
Example C125_order_example : scan_order [97; 98; 98; 97]%N [0; 2; 1; 3].
Proof.
  assert (O0 : own_shift [97; 98; 98; 97]%N 0 1) by (right; split; [intros j Hj; lia|reflexivity]).
  assert (O1 : own_shift [97; 98; 98; 97]%N 1 2) by (right; split; [intros j Hj; assert (j = 0) by lia; subst; discriminate|reflexivity]).
  assert (O2 : own_shift [97; 98; 98; 97]%N 2 1) by (left; exists 1; split; [split; [lia|split; [reflexivity|intros x Hx; lia]]|reflexivity]).
  assert (O3 : own_shift [97; 98; 98; 97]%N 3 3) by (left; exists 0; split; [split; [lia|split; [reflexivity|intros x Hx; assert (x = 1 \/ x = 2) as [->| ->] by lia; discriminate]]|reflexivity]).
  split; [constructor; apply perm_swap|]. repeat constructor; eexists _, _; (split; [eassumption|split; [eassumption|lia]]).
Qed.
(** a byte 255 which stands behind none of the windows, and one which does *)
Example C125_ms_example : match_ms [97; 98; 98; 97; 120; 255; 97; 98; 98; 97]%N [97; 98; 98; 97]%N = Ok [0; 6] /\ match_ms [97; 98; 98; 97; 120; 97; 98; 98; 97; 255]%N [97; 98; 98; 97]%N = UB.
Proof. split; vm_compute; reflexivity. Qed.
