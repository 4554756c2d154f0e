(** Model of the traversals of string_util/graph_util.hpp with a node_action that has members of its own. Both traversals take the action
    by value. *)
From Coq Require Import List NArith Arith Bool.
From Verif Require Import Base TrieModel.
Import ListNotations.
Local Open Scope nat_scope.

Section Act.
Context {S : Type}.
(** a call of node_action on a node and a depth changes its members *)
Variable act : S -> nat -> nat -> S.
(** graph_util.hpp:133-140: the calls, each with the members of the action it was made on. Every recursive call receives a copy of the
    action as it is after the call on [i], and the changes to that copy are lost *)
Fixpoint dfs_act (fuel : nat) (ns : list node) (i depth : nat) (s : S) : res (list (nat * nat * S)) :=
  match fuel with
  | O => Fuel
  | Datatypes.S fuel =>
      do n <- lget ns i;
      let s' := act s i depth in
      foldM (fun calls e => do l <- dfs_act fuel ns (snd e) (depth + 1) s'; Ok (calls ++ l)) (nd_edges n) [(i, depth, s)]
  end.
(** graph_util.hpp:128-131 with 160-166: dfs(action) *)
Definition dfs_from_root (fuel : nat) (ns : list node) (s : S) : res (list (nat * nat * S)) := dfs_act fuel ns 0 0 s.
(** graph_util.hpp:146-157: one action object is called for all nodes *)
Fixpoint bfs_act (fuel : nat) (ns : list node) (queue : list (nat * nat)) (s : S) : res (list (nat * nat * S)) :=
  match queue with
  | [] => Ok []
  | (i, depth) :: queue =>
      match fuel with
      | O => Fuel
      | Datatypes.S fuel =>
          do n <- lget ns i;
          do l <- bfs_act fuel ns (queue ++ map (fun e => (snd e, depth + 1)) (nd_edges n)) (act s i depth);
          Ok ((i, depth, s) :: l)
      end
  end.
(** graph_util.hpp:142-145 *)
Definition bfs_from_root (fuel : nat) (ns : list node) (s : S) : res (list (nat * nat * S)) := bfs_act fuel ns [(0, 0)] s.
End Act.
