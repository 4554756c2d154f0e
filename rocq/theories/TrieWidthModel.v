(** Model of string_util/graph_util.hpp: class Trie with its size_type, an integer type of any width, as the type
    in which node and item numbers are stored. TrieModel has the numbers unbounded. The std::map of edges is a list ordered by the label. *)
From Coq Require Import List NArith ZArith Arith Bool.
From Verif Require Import Base.
Import ListNotations.
Local Open Scope nat_scope.

(** the size_type parameter of Trie (graph_util.hpp:64): an integer type with or without sign *)
Record int_type := { it_signed : bool; it_bits : N }.
(** conversion of a size_t to the size_type, modulo 2^bits *)
Definition it_of (ty : int_type) (n : nat) : Z :=
  let r := (Z.of_nat n mod 2 ^ Z.of_N (it_bits ty))%Z in
  if it_signed ty && (2 ^ (Z.of_N (it_bits ty) - 1) <=? r)%Z then (r - 2 ^ Z.of_N (it_bits ty))%Z else r.
(** graph_util.hpp:72: kItemEmpty, the largest value of the size_type *)
Definition it_max (ty : int_type) : Z := (if it_signed ty then 2 ^ (Z.of_N (it_bits ty) - 1) - 1 else 2 ^ Z.of_N (it_bits ty) - 1)%Z.
(** conversion of a value of the size_type to size_t *)
Definition to_size (z : Z) : N := Z.to_N (z mod 2 ^ 64).

(** graph_util.hpp:20-29 *)
Record wnode := { wn_item : Z; wn_edges : list (N * Z) }.
(** graph_util.hpp:32 *)
Definition wn_new (ty : int_type) : wnode := {| wn_item := it_max ty; wn_edges := [] |}.
(** std::map::try_emplace *)
Fixpoint wedge_add (l : list (N * Z)) (c : N) (j : Z) : list (N * Z) :=
  match l with
  | [] => [(c, j)]
  | (d, i) :: r => if (c <? d)%N then (c, j) :: l else if (c =? d)%N then l else (d, i) :: wedge_add r c j
  end.
(** graph_util.hpp:35-37; the size of the container is converted to the size_type *)
Definition wn_add (ty : int_type) (n : wnode) (c : N) (j : nat) : wnode := {| wn_item := wn_item n; wn_edges := wedge_add (wn_edges n) c (it_of ty j) |}.
(** graph_util.hpp:39-44 *)
Definition wn_target (n : wnode) (c : N) : Z := match find (fun e => (fst e =? c)%N) (wn_edges n) with Some e => snd e | None => 0%Z end.
(** graph_util.hpp:52; -1 is converted to the size_type if that is unsigned and not narrower than int *)
Definition wn_terminal (ty : int_type) (n : wnode) : bool :=
  negb (wn_item n =? if negb (it_signed ty) && (32 <=? it_bits ty)%N then 2 ^ Z.of_N (it_bits ty) - 1 else -1)%Z.

Record wtrie (A : Type) := { wr_nodes : list wnode; wr_store : list A }.
Arguments wr_nodes {A}. Arguments wr_store {A}.
(** graph_util.hpp:79-81 *)
Definition wr_new {A} (ty : int_type) : wtrie A := {| wr_nodes := [wn_new ty]; wr_store := [] |}.
(** graph_util.hpp:90-98 and 101-109; the variable [node] is a size_t *)
Definition winsert_step (ty : int_type) (st : list wnode * N) (c : N) : res (list wnode * N) :=
  let '(ns, i) := st in
  do n <- lgetN ns i;
  let target := wn_target n c in
  if negb (target =? 0)%Z then Ok (ns, to_size target) else
  do ns' <- lset ns (N.to_nat i) (wn_add ty n c (length ns));
  Ok (ns' ++ [wn_new ty], N.of_nat (length ns)).
(** graph_util.hpp:111-120; the position in the storage to which the result points *)
Definition wr_put {A} (ty : int_type) (ns : list wnode) (i : N) (store : list A) (item : A) : res (wtrie A * N) :=
  do n <- lgetN ns i;
  if (wn_item n =? it_max ty)%Z then
    let x := it_of ty (length store) in
    do ns <- lset ns (N.to_nat i) {| wn_item := x; wn_edges := wn_edges n |};
    let store := store ++ [item] in
    if (to_size x <? N.of_nat (length store))%N then Ok ({| wr_nodes := ns; wr_store := store |}, to_size x) else UB
  else
    let x := to_size (wn_item n) in
    if (x <? N.of_nat (length store))%N then do store <- lset store (N.to_nat x) item; Ok ({| wr_nodes := ns; wr_store := store |}, x) else UB.
(** graph_util.hpp:87-121 *)
Definition wr_insert {A} (ty : int_type) (t : wtrie A) (key : list N) (item : A) : res (wtrie A * N) :=
  do r <- foldM (winsert_step ty) key (wr_nodes t, 0%N);
  do r <- winsert_step ty r 0%N;
  wr_put ty (fst r) (snd r) (wr_store t) item.
(** a history of insertions, starting from the empty trie *)
Definition wr_run {A} (ty : int_type) (ops : list (list N * A)) : res (wtrie A) :=
  foldM (fun t kv => do r <- wr_insert ty t (fst kv) (snd kv); Ok (fst r)) ops (wr_new ty).
(** graph_util.hpp:171-177; [None] is the result -1 *)
Fixpoint wr_walk (ns : list wnode) (i : N) (key : list N) : res (option N) :=
  match key with
  | [] => Ok (Some i)
  | c :: key => do n <- lgetN ns i; let target := wn_target n c in if (target =? 0)%Z then Ok None else wr_walk ns (to_size target) key
  end.
(** graph_util.hpp:169-186; the size_t returned *)
Definition wr_traverse_index {A} (t : wtrie A) (key : list N) : res N :=
  do r <- wr_walk (wr_nodes t) 0 key;
  match r with
  | None => Ok (2 ^ 64 - 1)%N
  | Some i =>
      do n <- lgetN (wr_nodes t) i;
      let target := wn_target n 0%N in
      if (target =? 0)%Z then Ok (2 ^ 64 - 1)%N else
      do n <- lgetN (wr_nodes t) (to_size target); Ok (to_size (wn_item n))
  end.
(** graph_util.hpp:123-126; the item pointed to *)
Definition wr_traverse {A} (t : wtrie A) (key : list N) : res (option A) :=
  do w <- wr_traverse_index t key;
  if (w =? 2 ^ 64 - 1)%N then Ok None else do x <- lgetN (wr_store t) w; Ok (Some x).
