(** Model of Heap.hpp and sort.hpp with a comparison that may keep a state of its own: a counter of its calls, or a function
    object whose answers depend on earlier calls. HeapModel has the comparison as a plain function. *)
From Coq Require Import List NArith Arith Bool.
From Verif Require Import Base HeapModel.
Import ListNotations.
Local Open Scope nat_scope.

(** a test on two elements that reads and changes a state *)
Definition stest (S A : Type) := S -> A -> A -> bool * S.
(** Heap.hpp:42-57, sort.hpp:44-61 *)
Fixpoint heapify_st {S A} (pick_right sink : stest S A) (fuel sz : nat) (s : S) (l : list A) (id : nat) : res (S * list A) :=
  match fuel with
  | O => Fuel
  | Datatypes.S fuel =>
      if sz / 2 <? id then Ok (s, l)
      else
        do r <- (if 2 * id + 1 <=? sz
                 then do a <- lget l (2 * id - 1); do b <- lget l (2 * id + 1 - 1); let '(p, s) := pick_right s a b in Ok (s, if p then 2 * id + 1 else 2 * id)
                 else Ok (s, 2 * id));
        let '(s, m) := r in
        do x <- lget l (id - 1); do y <- lget l (m - 1);
        let '(p, s) := sink s x y in
        if p then do l <- swap_at l (id - 1) (m - 1); heapify_st pick_right sink fuel sz s l m else Ok (s, l)
  end.
(** Heap.hpp:59-63, sort.hpp:24-25 *)
Definition heap_build_st {S A} (pick_right sink : stest S A) (sz : nat) (s : S) (l : list A) : res (S * list A) :=
  foldM (fun r id => heapify_st pick_right sink (Datatypes.S sz) sz (fst r) (snd r) id) (rev (seq 1 (sz / 2))) (s, l).
(** sort.hpp:26-30 *)
Fixpoint sort_loop_st {S A} (cmp : stest S A) (k : nat) (s : S) (l : list A) : res (S * list A) :=
  match k with
  | Datatypes.S (Datatypes.S _ as k') =>
      do l <- swap_at l 0 k'; do r <- heapify_st cmp cmp (Datatypes.S k') k' s l 1; sort_loop_st cmp k' (fst r) (snd r)
  | _ => Ok (s, l)
  end.
(** sort.hpp:23-32, 65-68 *)
Definition heap_sort_st {S A} (cmp : stest S A) (s : S) (l : list A) : res (S * list A) :=
  do r <- heap_build_st cmp cmp (length l) s l; sort_loop_st cmp (length l) (fst r) (snd r).

(** a plain test that counts its calls *)
Definition counted {A} (f : A -> A -> bool) : stest nat A := fun k a b => (f a b, S k).
(** Heap.hpp:23-40 with the calls of Compare counted *)
Definition heap_make_count (asc : bool) (l : list N) : res (nat * list N) := heap_build_st (counted (heap_test asc)) (counted (heap_test asc)) (length l) 0 l.
(** Heap.hpp:65-68 *)
Definition heap_push_count (asc : bool) (base : list N) (v : N) : res (nat * list N) :=
  heapify_st (counted (heap_test asc)) (counted (heap_test asc)) (S (length (v :: base))) (length (v :: base)) 0 (v :: base) 1.
(** Heap.hpp:70-74 *)
Definition heap_pop_count (asc : bool) (base : list N) : res (nat * list N) :=
  match base with
  | [] => UB
  | _ => do base <- swap_at base 0 (length base - 1);
         let base := firstn (length base - 1) base in
         heapify_st (counted (heap_test asc)) (counted (heap_test asc)) (S (length base)) (length base) 0 base 1
  end.
