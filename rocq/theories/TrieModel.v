(** Model of string_util/graph_util.hpp: class Trie.
    Node and item numbers are nat: the size_type is assumed wide enough for the number of nodes.
    The std::map of edges is a list ordered by the label. *)
From Coq Require Import List NArith Arith Bool.
From Verif Require Import Base.
Import ListNotations.
Local Open Scope nat_scope.

(** the size_type parameter of Trie; size_t is the default, the tests of the repository use int *)
Inductive size_type := SizeT | UInt32 | Int32.
(** graph_util.hpp:20-61; no item is [None], standing for kItemEmpty *)
Record node := { nd_item : option nat; nd_edges : list (N * nat) }.
(** graph_util.hpp:32 *)
Definition nd_new : node := {| nd_item := None; nd_edges := [] |}.
(** std::map::try_emplace *)
Fixpoint edge_add (l : list (N * nat)) (c : N) (j : nat) : list (N * nat) :=
  match l with
  | [] => [(c, j)]
  | (d, i) :: r => if (c <? d)%N then (c, j) :: l else if (c =? d)%N then l else (d, i) :: edge_add r c j
  end.
(** graph_util.hpp:35-37 *)
Definition nd_add (n : node) (c : N) (j : nat) : node := {| nd_item := nd_item n; nd_edges := edge_add (nd_edges n) c j |}.
(** graph_util.hpp:39-44 *)
Definition nd_target (n : node) (c : N) : nat := match find (fun e => (fst e =? c)%N) (nd_edges n) with Some e => snd e | None => 0 end.
(** graph_util.hpp:46 with 72: the item number as a value of the size_type *)
Definition nd_item_index (st : size_type) (n : node) : N :=
  match nd_item n with
  | Some i => N.of_nat i
  | None => match st with SizeT => 2 ^ 64 - 1 | UInt32 => 2 ^ 32 - 1 | Int32 => 2 ^ 31 - 1 end%N
  end.
(** graph_util.hpp:52; -1 is converted to the type of the number if that is unsigned *)
Definition nd_terminal (st : size_type) (n : node) : bool :=
  match st with
  | SizeT => negb (nd_item_index st n =? 2 ^ 64 - 1)%N
  | UInt32 => negb (nd_item_index st n =? 2 ^ 32 - 1)%N
  | Int32 => true
  end.

Record trie (A : Type) := { tr_nodes : list node; tr_store : list A }.
Arguments tr_nodes {A}. Arguments tr_store {A}.
(** graph_util.hpp:79-81 *)
Definition tr_new {A} : trie A := {| tr_nodes := [nd_new]; tr_store := [] |}.
(** graph_util.hpp:90-98 and 101-109 *)
Definition insert_step (st : list node * nat) (c : N) : res (list node * nat) :=
  let '(ns, i) := st in
  do n <- lget ns i;
  let target := nd_target n c in
  if negb (target =? 0) then Ok (ns, target) else
  do ns' <- lset ns i (nd_add n c (length ns));
  Ok (ns' ++ [nd_new], length ns).
(** graph_util.hpp:87-121 *)
Definition tr_insert {A} (t : trie A) (key : list N) (item : A) : res (trie A * nat) :=
  do r <- foldM insert_step key (tr_nodes t, 0);
  do r <- insert_step r 0%N;
  let '(ns, i) := r in
  do n <- lget ns i;
  match nd_item n with
  | None =>
      do ns <- lset ns i {| nd_item := Some (length (tr_store t)); nd_edges := nd_edges n |};
      Ok ({| tr_nodes := ns; tr_store := tr_store t ++ [item] |}, length (tr_store t))
  | Some x => do store <- lset (tr_store t) x item; Ok ({| tr_nodes := ns; tr_store := store |}, x)
  end.
(** a history of insertions, starting from the empty trie *)
Definition tr_run {A} (ops : list (list N * A)) : res (trie A) := foldM (fun t kv => do r <- tr_insert t (fst kv) (snd kv); Ok (fst r)) ops tr_new.
(** graph_util.hpp:171-177; [None] is the result -1 *)
Fixpoint tr_walk (ns : list node) (i : nat) (key : list N) : res (option nat) :=
  match key with
  | [] => Ok (Some i)
  | c :: key => do n <- lget ns i; let target := nd_target n c in if target =? 0 then Ok None else tr_walk ns target key
  end.
(** graph_util.hpp:169-186; the size_t returned *)
Definition tr_traverse_index {A} (st : size_type) (t : trie A) (key : list N) : res N :=
  do r <- tr_walk (tr_nodes t) 0 key;
  match r with
  | None => Ok (2 ^ 64 - 1)%N
  | Some i =>
      do n <- lget (tr_nodes t) i;
      let target := nd_target n 0%N in
      if target =? 0 then Ok (2 ^ 64 - 1)%N else
      do n <- lget (tr_nodes t) target; Ok (nd_item_index st n)
  end.
(** graph_util.hpp:123-126; the item pointed to *)
Definition tr_traverse {A} (st : size_type) (t : trie A) (key : list N) : res (option A) :=
  do w <- tr_traverse_index st t key;
  if (w =? 2 ^ 64 - 1)%N then Ok None else
  if (w <? N.of_nat (length (tr_store t)))%N then do x <- lget (tr_store t) (N.to_nat w); Ok (Some x) else UB.
(** graph_util.hpp:133-140; the list of calls of node_action, as pairs of node and depth *)
Fixpoint tr_dfs (fuel : nat) (ns : list node) (i depth : nat) : res (list (nat * nat)) :=
  match fuel with
  | O => Fuel
  | S fuel =>
      do n <- lget ns i;
      foldM (fun calls e => do l <- tr_dfs fuel ns (snd e) (depth + 1); Ok (calls ++ l)) (nd_edges n) [(i, depth)]
  end.
(** graph_util.hpp:146-157 *)
Fixpoint tr_bfs_loop (fuel : nat) (ns : list node) (queue : list (nat * nat)) : res (list (nat * nat)) :=
  match queue with
  | [] => Ok []
  | (i, depth) :: queue =>
      match fuel with
      | O => Fuel
      | S fuel =>
          do n <- lget ns i;
          do l <- tr_bfs_loop fuel ns (queue ++ map (fun e => (snd e, depth + 1)) (nd_edges n));
          Ok ((i, depth) :: l)
      end
  end.
(** graph_util.hpp:142-145 *)
Definition tr_bfs (fuel : nat) (ns : list node) : res (list (nat * nat)) := tr_bfs_loop fuel ns [(0, 0)].
