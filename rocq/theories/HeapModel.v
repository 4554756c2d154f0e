(** Model of Heap.hpp and sort.hpp. *)
From Coq Require Import List NArith ZArith Arith Bool.
From Verif Require Import Base Spec3.
Import ListNotations.
Local Open Scope nat_scope.

(** std::swap(base[i], base[j]) *)
Definition swap_at {A} (l : list A) (i j : nat) : res (list A) :=
  do x <- lget l i; do y <- lget l j; do l <- lset l i y; lset l j x.

(** Heapify of Heap.hpp:42-57 and of sort.hpp:44-61. Both sift element [id] (counted from 1) down the first [sz] elements;
    [pick_right] is the test that makes the right child the candidate (Heap.hpp:49, sort.hpp:51), [sink] the test that swaps
    (Heap.hpp:53, sort.hpp:57). left, right, is_leaf: Heap.hpp:98-108, sort.hpp:38-42. *)
Fixpoint heapify {A} (pick_right sink : A -> A -> bool) (fuel sz : nat) (l : list A) (id : nat) : res (list A) :=
  match fuel with
  | O => Fuel
  | S fuel =>
      if sz / 2 <? id then Ok l
      else
        do m <- (if 2 * id + 1 <=? sz
                 then do a <- lget l (2 * id - 1); do b <- lget l (2 * id + 1 - 1); Ok (if pick_right a b then 2 * id + 1 else 2 * id)
                 else Ok (2 * id));
        do x <- lget l (id - 1); do y <- lget l (m - 1);
        if sink x y then do l <- swap_at l (id - 1) (m - 1); heapify pick_right sink fuel sz l m else Ok l
  end.
(** The calls Heapify(sz / 2), ..., Heapify(1): Heap.hpp:59-63, sort.hpp:24-25 *)
Definition heap_build {A} (pick_right sink : A -> A -> bool) (sz : nat) (l : list A) : res (list A) :=
  foldM (fun l id => heapify pick_right sink (S sz) sz l id) (rev (seq 1 (sz / 2))) l.

(** ** Heap<Ascending>; the object is base_ *)
(** Heap.hpp:117-119 *)
Definition heap_compare (asc : bool) (a b : N) : bool := if asc then (a <? b)%N else (b <? a)%N.
Definition heap_test (asc : bool) (a b : N) : bool := negb (heap_compare asc a b).
Definition heap_heapify (asc : bool) (base : list N) (id : nat) : res (list N) :=
  heapify (heap_test asc) (heap_test asc) (S (length base)) (length base) base id.
(** Heap.hpp:23-40 *)
Definition heap_make (asc : bool) (l : list N) : res (list N) := heap_build (heap_test asc) (heap_test asc) (length l) l.
(** Heap.hpp:65-68 *)
Definition heap_push (asc : bool) (base : list N) (v : N) : res (list N) := heap_heapify asc (v :: base) 1.
(** Heap.hpp:70-74; back() of an empty vector is undefined *)
Definition heap_pop (asc : bool) (base : list N) : res (list N) :=
  match base with
  | [] => UB
  | _ => do base <- swap_at base 0 (length base - 1);
         let base := firstn (length base - 1) base in heap_heapify asc base 1
  end.
(** Heap.hpp:86-88 *)
Definition heap_front (base : list N) : res N := lget base 0.

Inductive heap_op := HPush (v : N) | HPop.
Definition heap_step (asc : bool) (base : list N) (o : heap_op) : res (list N) :=
  match o with HPush v => heap_push asc base v | HPop => heap_pop asc base end.
Definition heap_run (asc : bool) (l : list N) (ops : list heap_op) : res (list N) := do b <- heap_make asc l; foldM (heap_step asc) ops b.
(** A user's loop: front() then pop(), [k] times *)
Fixpoint heap_drain (asc : bool) (k : nat) (base : list N) : res (list N) :=
  match k with
  | O => Ok []
  | S k => do x <- heap_front base; do base <- heap_pop asc base; do r <- heap_drain asc k base; Ok (x :: r)
  end.

(** ** HeapSort(begin, end, compare): sort.hpp:16-32, 65-73; the loop ends when end_ - 1 reaches begin_
    (for an empty range end_ - 1 lies before begin_ and the comparison is taken to be false) *)
Fixpoint sort_loop {A} (cmp : A -> A -> bool) (k : nat) (l : list A) : res (list A) :=
  match k with
  | S (S _ as k') => (* end_ - begin_ = k >= 2 *)
      do l <- swap_at l 0 k'; do l <- heapify cmp cmp (S k') k' l 1; sort_loop cmp k' l
  | _ => Ok l
  end.
Definition heap_sort {A} (cmp : A -> A -> bool) (l : list A) : res (list A) :=
  do l <- heap_build cmp cmp (length l) l; sort_loop cmp (length l) l.
