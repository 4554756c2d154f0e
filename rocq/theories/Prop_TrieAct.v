(** Property C150: trie traversals with an action that has members of its own (string_util/graph_util.hpp). *)
From Coq Require Import List NArith Arith Bool Lia Sorted.
From Verif Require Import Base Spec5 TrieModel TrieActModel TrieAct.
Import ListNotations.
Local Open Scope nat_scope.

(** dfs: the action called on the node of [p] has seen the nodes of the proper prefixes of [p] and no others. *)
Theorem C150_dfs : forall A (ops : list (list N * A)) t fuel, tr_run ops = Ok t -> length (tr_nodes t) <= fuel -> exists ps node,
  StronglySorted lex_lt ps /\ (forall p, In p ps <-> key_prefix ops p) /\ (forall p, In p ps -> tr_walk (tr_nodes t) 0 p = Ok (Some (node p))) /\
  forall S (act : S -> nat -> nat -> S) s, dfs_from_root act fuel (tr_nodes t) s =
    Ok (map (fun p => (node p, length p, fold_left (fun s k => act s (node (firstn k p)) k) (seq 0 (length p)) s)) ps).
Proof. exact dfs_act_stmt. Qed.
(** bfs: the action has seen all nodes visited before. *)
Theorem C150_bfs : forall A (ops : list (list N * A)) t fuel, tr_run ops = Ok t -> length (tr_nodes t) < fuel -> exists ps node,
  StronglySorted shortlex_lt ps /\ (forall p, In p ps <-> key_prefix ops p) /\ (forall p, In p ps -> tr_walk (tr_nodes t) 0 p = Ok (Some (node p))) /\
  forall S (act : S -> nat -> nat -> S) s k, k < length ps -> exists l, bfs_from_root act fuel (tr_nodes t) s = Ok l /\ length l = length ps /\
    nth_error l k = Some (node (nth k ps []), length (nth k ps []), fold_left (fun s p => act s (node p) (length p)) (firstn k ps) s).
Proof. exact bfs_act_stmt. Qed.
(** a counter, and the sum of the numbers of the nodes seen *)
Example C150_example : exists t, tr_run [([98; 97], 1); ([97], 2); ([98], 3)]%N = Ok t /\ length (tr_nodes t) = 7 /\
  dfs_from_root (fun s _ _ => s + 1) 7 (tr_nodes t) 0 = Ok [(0, 0, 0); (4, 1, 1); (5, 2, 2); (1, 1, 1); (6, 2, 2); (2, 2, 2); (3, 3, 3)] /\
  dfs_from_root (fun s i _ => s + i) 7 (tr_nodes t) 0 = Ok [(0, 0, 0); (4, 1, 0); (5, 2, 4); (1, 1, 0); (6, 2, 1); (2, 2, 1); (3, 3, 3)] /\
  bfs_from_root (fun s _ _ => s + 1) 8 (tr_nodes t) 0 = Ok [(0, 0, 0); (4, 1, 1); (1, 1, 2); (5, 2, 3); (6, 2, 4); (2, 2, 5); (3, 3, 6)].
Proof. eexists. split; [vm_compute; reflexivity|]. vm_compute. auto. Qed.

Print Assumptions C150_dfs.
Print Assumptions C150_bfs.
