(** C128: heaps and HeapSort with any comparison, and the number of comparisons. *)
From Coq Require Import List NArith Arith Bool Lia Permutation.
From Verif Require Import Base HeapModel HeapCostModel HeapCost.
Import ListNotations.
Local Open Scope nat_scope.

(** whatever the comparison answers, be it different answers to the same question *)
Theorem C128_any_comparison : forall S A (cmp : S -> A -> A -> bool * S) s l, exists s' l', heap_sort_st cmp s l = Ok (s', l') /\ Permutation l l'.
Proof. exact sort_any_comparator. Qed.
Print Assumptions C128_any_comparison.
(** a comparison that alternates between yes and no *)
Example C128_any_comparison_example : heap_sort_st (fun (s : bool) (_ _ : nat) => (s, negb s)) true [4; 1; 3; 2; 5] = Ok (false, [3; 1; 2; 5; 4]).
Proof. vm_compute. reflexivity. Qed.
Theorem C128_sort_comparisons : forall A (c : A -> A -> bool) l, exists k l', heap_sort_st (counted c) 0 l = Ok (k, l') /\ heap_sort c l = Ok l' /\ k <= 2 * (length l - 1) * (1 + Nat.log2 (length l)).
Proof. exact sort_count. Qed.
Print Assumptions C128_sort_comparisons.
Example C128_sort_comparisons_example : heap_sort_st (counted Nat.ltb) 0 [4; 1; 3; 2; 5; 7; 6; 0] = Ok (24, [0; 1; 2; 3; 4; 5; 6; 7]).
Proof. vm_compute. reflexivity. Qed.
Theorem C128_make_comparisons : forall asc l, exists k h, heap_make_count asc l = Ok (k, h) /\ heap_make asc l = Ok h /\ k <= 2 * (length l - 1).
Proof. exact make_count. Qed.
Print Assumptions C128_make_comparisons.
Theorem C128_push_comparisons : forall asc base v, exists k h, heap_push_count asc base v = Ok (k, h) /\ heap_push asc base v = Ok h /\ k <= 2 * Nat.log2 (length base + 1).
Proof. exact push_count. Qed.
Print Assumptions C128_push_comparisons.
Theorem C128_pop_comparisons : forall asc base, base <> [] -> exists k h, heap_pop_count asc base = Ok (k, h) /\ heap_pop asc base = Ok h /\ k <= 2 * Nat.log2 (length base - 1).
Proof. exact pop_count. Qed.
Print Assumptions C128_pop_comparisons.
Example C128_heap_example : heap_make_count true [7; 6; 5; 4; 3; 2; 1]%N = Ok (8, [1; 3; 2; 4; 6; 7; 5]%N) /\ heap_push_count true [1; 3; 2; 4; 6; 7; 5]%N 9%N = Ok (5, [1; 2; 3; 5; 4; 6; 7; 9]%N) /\
  heap_pop_count true [1; 3; 2; 4; 6; 7; 5]%N = Ok (3, [2; 3; 5; 4; 6; 7]%N).
Proof. vm_compute. auto. Qed.
