(** Properties C37, C38 (Heap.hpp) and C39 (sort.hpp). *)
From Coq Require Import List NArith ZArith Lia Bool Arith Permutation Sorted.
From Verif Require Import Base Spec3 HeapModel HeapProof HeapProof2.
Import ListNotations.
Local Open Scope nat_scope.

(** ** C37: MinHeap is asc = true, MaxHeap is asc = false *)
Theorem C37_drain : forall asc l, exists h out,
  heap_make asc l = Ok h /\ heap_drain asc (length l) h = Ok out /\ Permutation l out /\
  StronglySorted (fun a b => if asc then (a <= b)%N else (b <= a)%N) out.
Proof. exact make_drain. Qed.
Print Assumptions C37_drain.
Theorem C37_front : forall asc l k, k < length l ->
  exists h x, heap_run asc l (repeat HPop k) = Ok h /\ heap_front h = Ok x /\ In x h /\ forall y, In y h -> if asc then (x <= y)%N else (y <= x)%N.
Proof. exact pops_front. Qed.
Print Assumptions C37_front.
Example C37_ex : (do h <- heap_make true [5; 2; 9; 2; 7; 1]%N; heap_drain true 6 h) = Ok [1; 2; 2; 5; 7; 9]%N /\
  (do h <- heap_make false [5; 2; 9; 2; 7; 1]%N; heap_drain false 6 h) = Ok [9; 7; 5; 2; 2; 1]%N.
Proof. split; vm_compute; reflexivity. Qed.

(** ** C38: push inserts in front of the array and sifts one element down, so the rest of the array is no longer a heap *)
Theorem C38_refuted : exists l ops h x y, heap_run true l ops = Ok h /\ heap_front h = Ok x /\ In y h /\ (y < x)%N.
Proof.
  exists [0; 1; 2; 2; 1]%N, [HPush 2; HPush 3; HPush 2; HPop; HPop]%N. do 3 eexists.
  split; [vm_compute; reflexivity|]. split; [vm_compute; reflexivity|]. split; [right; right; right; left; reflexivity|]. vm_compute. reflexivity.
Qed.
Print Assumptions C38_refuted.
(** What remains: the front is right when pushes come after the last pop *)
Theorem C38_front_partial : forall asc l k xs, k <= length l -> k < length l + length xs ->
  exists h x, heap_run asc l (repeat HPop k ++ map HPush xs) = Ok h /\ heap_front h = Ok x /\ In x h /\
    forall y, In y h -> if asc then (x <= y)%N else (y <= x)%N.
Proof. exact pops_pushes_front. Qed.
Print Assumptions C38_front_partial.
(** ... and, in every state, push adds exactly the new element and pop removes exactly the front *)
Theorem C38_push_contents_partial : forall asc base x, exists h, heap_push asc base x = Ok h /\ Permutation (x :: base) h.
Proof. exact push_contents. Qed.
Print Assumptions C38_push_contents_partial.
Theorem C38_pop_contents_partial : forall asc x base, exists h,
  heap_front (x :: base) = Ok x /\ heap_pop asc (x :: base) = Ok h /\ Permutation base h.
Proof.
  intros asc x base. destruct (pop_contents asc (x :: base)) as (h & E & P); [discriminate|]. exists h. split; [reflexivity|]. split; [exact E|].
  apply (Permutation_cons_inv P).
Qed.
Print Assumptions C38_pop_contents_partial.
Example C38_ex : (do h <- heap_run true [4; 8; 6]%N [HPop; HPush 3; HPush 9]%N; heap_front h) = Ok 3%N.
Proof. vm_compute; reflexivity. Qed.

(** ** C39 *)
Theorem C39_sorts : forall (A : Type) (cmp : A -> A -> bool) l, strict_weak_order cmp ->
  exists l', heap_sort cmp l = Ok l' /\ Permutation l l' /\ ordered_by cmp l'.
Proof. exact heap_sort_ok. Qed.
Print Assumptions C39_sorts.
(** A weak order with ties: pairs compared by their first component *)
Example C39_ex : strict_weak_order (fun a b : nat * nat => fst a <? fst b) /\
  heap_sort (fun a b : nat * nat => fst a <? fst b) [(3, 0); (1, 1); (2, 2); (1, 3); (0, 4)] = Ok [(0, 4); (1, 1); (1, 3); (2, 2); (3, 0)].
Proof.
  split; [|vm_compute; reflexivity]. split; [|split].
  - intros a. apply Nat.ltb_irrefl.
  - intros a b c H1 H2. apply Nat.ltb_lt in H1, H2. apply Nat.ltb_lt. lia.
  - intros a b c H1 H2 H3 H4. apply Nat.ltb_ge in H1, H2, H3, H4. split; apply Nat.ltb_ge; lia.
Qed.

(** ** C83: the front stays right as long as at most one pop follows the first push *)
Theorem C83_front : forall asc l k xs p ys, p <= 1 -> k <= length l -> k + p <= length l + length xs -> k + p < length l + length xs + length ys ->
  exists h x, heap_run asc l (repeat HPop k ++ map HPush xs ++ repeat HPop p ++ map HPush ys) = Ok h /\ heap_front h = Ok x /\ In x h /\
    forall y, In y h -> if asc then (x <= y)%N else (y <= x)%N.
Proof. exact late_pop_front. Qed.
Print Assumptions C83_front.
Example C83_ex : (do h <- heap_run true [4; 8; 6]%N (repeat HPop 1 ++ map HPush [5; 7; 3; 9]%N ++ repeat HPop 1 ++ map HPush [8]%N); heap_front h) = Ok 5%N.
Proof. vm_compute; reflexivity. Qed.
(** a second pop, whether or not elements are pushed in between, can expose an element that is not the least *)
Theorem C83_sharp : (exists l x h a b, heap_run true l [HPush x; HPop; HPop] = Ok h /\ heap_front h = Ok a /\ In b h /\ (b < a)%N) /\
  (exists l x y h a b, heap_run true l [HPush x; HPop; HPush y; HPop] = Ok h /\ heap_front h = Ok a /\ In b h /\ (b < a)%N).
Proof.
  split.
  - exists [0; 3; 1; 4; 4; 2; 4; 4]%N, 4%N. do 3 eexists. split; [vm_compute; reflexivity|]. split; [vm_compute; reflexivity|]. split; [right; right; left; reflexivity|]. reflexivity.
  - exists [0; 1; 0; 1; 1; 0; 2]%N, 2%N, 1%N. do 3 eexists. split; [vm_compute; reflexivity|]. split; [vm_compute; reflexivity|]. split; [right; right; right; left; reflexivity|]. reflexivity.
Qed.
Print Assumptions C83_sharp.
