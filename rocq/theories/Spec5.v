(** Specifications of the suffix array, the trie and the automaton for key sets, independent of the models. *)
From Coq Require Import List NArith Arith Bool Permutation.
Import ListNotations.

(** the lexicographic order of strings *)
Fixpoint lex_lt (a b : list N) : Prop :=
  match a, b with
  | _, [] => False
  | [], _ :: _ => True
  | x :: a, y :: b => (x < y)%N \/ (x = y /\ lex_lt a b)
  end.
(** the length of the longest common prefix *)
Fixpoint common_prefix (a b : list N) : nat :=
  match a, b with x :: a, y :: b => if (x =? y)%N then S (common_prefix a b) else 0 | _, _ => 0 end.
(** [l] lists the starting positions of the non-empty suffixes of [s], smallest suffix first *)
Definition sorted_suffixes (s : list N) (l : list nat) : Prop :=
  Permutation l (seq 0 (length s)) /\ forall p q, p < q -> q < length l -> lex_lt (skipn (nth p l 0) s) (skipn (nth q l 0) s).

(** a history of insertions into a map from strings *)
Definition last_item {A} (ops : list (list N * A)) (k : list N) : option A :=
  option_map snd (find (fun kv => if list_eq_dec N.eq_dec (fst kv) k then true else false) (rev ops)).
(** the strings leading to the nodes of a trie in which every key is ended by a zero byte *)
Definition key_prefix {A} (ops : list (list N * A)) (p : list N) : Prop := p = [] \/ exists k x q, In (k, x) ops /\ k ++ [0%N] = p ++ q.
(** shorter strings first, strings of one length in lexicographic order *)
Definition shortlex_lt (a b : list N) : Prop := length a < length b \/ (length a = length b /\ lex_lt a b).

(** a key which no other key exceeds in length *)
Definition longest_key (K : list (list N)) (k : list N) : Prop := In k K /\ forall k', In k' K -> length k' <= length k.
