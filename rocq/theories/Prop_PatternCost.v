(** C130: how many characters the matchers compare. *)
From Coq Require Import List NArith ZArith Arith Bool Lia.
From Verif Require Import Base Spec4 PatternModel FoModel PatternCostModel PatternCost.
Import ListNotations.
Local Open Scope nat_scope.

Theorem C130_simple : forall text key, exists k, match_simple_count text key = Ok (k, occurrences key text) /\ k <= length key * (length text + 1 - length key) /\ (key <> [] -> length text + 1 - length key <= k).
Proof. exact simple_cost. Qed.
Print Assumptions C130_simple.
Example C130_simple_example : match_simple_count [97; 97; 97; 97; 97]%N [97; 97]%N = Ok (8, [0; 1; 2; 3]) /\ match_simple_count [97; 97; 97; 97; 97]%N [98; 97]%N = Ok (4, []).
Proof. vm_compute. auto. Qed.
Theorem C130_kmp : forall beyond text key, exists k1, rmap fst (kmp_make_count key) = Ok k1 /\ k1 <= 3 * length key - 2 /\
  forall l, match_kmp beyond text key = Ok l -> exists k2, match_kmp_count beyond text key = Ok (k1, (k2, l)) /\ k2 <= 2 * length text.
Proof. exact kmp_cost. Qed.
Print Assumptions C130_kmp.
Example C130_kmp_example : match_kmp_count [0]%N [97; 97; 99; 97; 97; 99; 97; 98; 97; 97; 98]%N [97; 97; 98]%N = Ok (4, (13, [8])) /\
  match_kmp_count [0]%N [97; 97; 98; 97; 97; 98; 97; 97]%N [97; 97; 98; 97; 97; 97]%N = Ok (11, (9, [])).
Proof. vm_compute. auto. Qed.
Theorem C130_bm : forall text key l, match_bm text key = Ok l -> exists w k, match_bm_count text key = Ok (w, k, l) /\ w <= length text + 1 - length key /\ length text + 1 - length key <= length key * w /\ w <= k <= length key * w.
Proof. exact bm_cost. Qed.
Print Assumptions C130_bm.
Example C130_bm_example : match_bm_count [97; 98; 99; 100; 101; 102; 103; 104; 105]%N [105; 106; 107]%N = Ok (3, 3, []) /\ match_bm_count [97; 97; 97; 97; 97]%N [97; 97]%N = Ok (4, 8, [0; 1; 2; 3]).
Proof. vm_compute. auto. Qed.
Theorem C130_quick_search : forall text key l, (N.of_nat (length text) < 2 ^ 64)%N -> (N.of_nat (length key) < 2 ^ 64)%N -> match_qs text key = Ok l -> exists w k, match_qs_count text key = Ok (w, k, l) /\
  length key <= length text /\ w <= length text + 1 - length key /\ length text + 1 - length key <= (length key + 1) * w /\ k <= length key * w /\ (key <> [] -> w <= k).
Proof. exact qs_cost. Qed.
Print Assumptions C130_quick_search.
Theorem C130_maximal_shift : forall text key l, (N.of_nat (length text) < 2 ^ 64)%N -> (N.of_nat (length key) < 2 ^ 64)%N -> match_ms text key = Ok l -> exists w k, match_ms_count text key = Ok (w, k, l) /\
  length key <= length text /\ w <= length text + 1 - length key /\ length text + 1 - length key <= (length key + 1) * w /\ k <= length key * w /\ (key <> [] -> w <= k).
Proof. exact ms_cost. Qed.
Print Assumptions C130_maximal_shift.
Example C130_sunday_example : match_qs_count [97; 98; 99; 100; 101; 102; 103]%N [105; 106]%N = Ok (2, 2, []) /\ match_ms_count [97; 98; 97; 97; 98; 97; 98]%N [97; 98]%N = Ok (4, 8, [0; 3; 5]).
Proof. vm_compute. auto. Qed.
Theorem C130_bom : forall fuel beyond text key l, match_bom fuel beyond text key = Ok l ->
  exists w k, match_bom_count fuel beyond text key = Ok (w, k, l) /\ w <= length text + 1 - length key /\ length text + 1 - length key <= length key * w /\ w <= k <= length key * w.
Proof. exact bom_cost. Qed.
Print Assumptions C130_bom.
Example C130_bom_example : match_bom_count 300 [0]%N [97; 98; 99; 100; 101; 102; 97; 97; 98]%N [97; 97; 98]%N = Ok (3, 5, [6]).
Proof. vm_compute. reflexivity. Qed.
