(** C57, C58, C65, C66: the trie. *)
From Coq Require Import List NArith Arith Bool Lia Sorted.
From Verif Require Import Base Spec5 TrieModel TrieProof TrieWalk.
Import ListNotations.
Local Open Scope nat_scope.

(** the default size_type; the bound is the capacity of that type *)
Theorem C65_default_size_type : forall A (ops : list (list N * A)), (N.of_nat (length ops) < 2 ^ 64 - 1)%N ->
  exists t, tr_run ops = Ok t /\ forall k, tr_traverse SizeT t k = Ok (last_item ops k).
Proof. exact @trie_map. Qed.
Print Assumptions C65_default_size_type.
Theorem C65_insert_returns_item : forall A (ops : list (list N * A)) t k x, tr_run ops = Ok t -> exists t' y, tr_insert t k x = Ok (t', y) /\ nth_error (tr_store t') y = Some x.
Proof. exact @insert_returns. Qed.
Print Assumptions C65_insert_returns_item.
Example C65_example : exists t, tr_run [([97; 0; 98], 1); ([97], 2); ([], 3); ([97; 98], 4); ([97], 5)]%N = Ok t /\ tr_traverse SizeT t [97%N] = Ok (Some 5%N) /\ tr_traverse SizeT t [] = Ok (Some 3%N) /\
  tr_traverse SizeT t [97; 0]%N = Ok None /\ tr_traverse SizeT t [97; 0; 98]%N = Ok (Some 1%N) /\ tr_traverse SizeT t [98]%N = Ok None.
Proof. eexists. split; [vm_compute; reflexivity|]. vm_compute. auto. Qed.
(** missing from the full claim: other size types when a key contains a zero byte *)
Theorem C57_size_types_partial : forall A st (ops : list (list N * A)), fits st (length ops) -> (forall q x, In (q, x) ops -> ~ In 0%N q) ->
  exists t, tr_run ops = Ok t /\ forall k, tr_traverse st t k = Ok (last_item ops k).
Proof. exact @trie_map_small. Qed.
Print Assumptions C57_size_types_partial.
Example C57_example : fits Int32 2 /\ exists t, tr_run [([97], 2); ([97; 98], 4)]%N = Ok t /\ tr_traverse Int32 t [97%N] = Ok (Some 2%N) /\ tr_traverse Int32 t [97; 0]%N = Ok None.
Proof. split; [reflexivity|]. eexists. split; [vm_compute; reflexivity|]. vm_compute. auto. Qed.
(** with int or uint32_t, looking up a key which was not inserted reads outside the storage *)
Theorem C57_zero_byte_refuted : forall st, st <> SizeT -> exists (ops : list (list N * N)) t k, tr_run ops = Ok t /\ last_item ops k = None /\ tr_traverse st t k = UB.
Proof. intros st H. exists [([97; 0; 98], 1)]%N. eexists. exists [97%N]. split; [vm_compute; reflexivity|]. split; [reflexivity|]. destruct st; [congruence| |]; vm_compute; reflexivity. Qed.
Print Assumptions C57_zero_byte_refuted.

(** the calls of dfs: one for every prefix of an inserted key with its end mark, in lexicographic order, with its length as the depth *)
Theorem C58_dfs : forall A (ops : list (list N * A)) t fuel, tr_run ops = Ok t -> length (tr_nodes t) <= fuel -> exists ps node,
  StronglySorted lex_lt ps /\ (forall p, In p ps <-> key_prefix ops p) /\ (forall p, In p ps -> tr_walk (tr_nodes t) 0 p = Ok (Some (node p))) /\
  NoDup (map node ps) /\ length ps = length (tr_nodes t) /\ tr_dfs fuel (tr_nodes t) 0 0 = Ok (map (fun p => (node p, length p)) ps).
Proof. exact dfs_stmt. Qed.
Print Assumptions C58_dfs.
Theorem C58_bfs : forall A (ops : list (list N * A)) t fuel, tr_run ops = Ok t -> length (tr_nodes t) < fuel -> exists ps node,
  StronglySorted shortlex_lt ps /\ (forall p, In p ps <-> key_prefix ops p) /\ (forall p, In p ps -> tr_walk (tr_nodes t) 0 p = Ok (Some (node p))) /\
  NoDup (map node ps) /\ length ps = length (tr_nodes t) /\ tr_bfs fuel (tr_nodes t) = Ok (map (fun p => (node p, length p)) ps).
Proof. exact bfs_stmt. Qed.
Print Assumptions C58_bfs.
Example C58_example : exists t, tr_run [([98; 97], 1); ([97], 2); ([98], 3)]%N = Ok t /\ length (tr_nodes t) = 7 /\
  tr_dfs 7 (tr_nodes t) 0 0 = Ok [(0, 0); (4, 1); (5, 2); (1, 1); (6, 2); (2, 2); (3, 3)] /\ tr_bfs 8 (tr_nodes t) = Ok [(0, 0); (4, 1); (1, 1); (5, 2); (6, 2); (2, 2); (3, 3)].
Proof. eexists. split; [vm_compute; reflexivity|]. vm_compute. auto. Qed.

(** missing from the full claim: the size type int *)
Theorem C66_default_partial : forall A (ops : list (list N * A)) t, tr_run ops = Ok t -> (N.of_nat (length ops) < 2 ^ 64 - 1)%N -> forall p, key_prefix ops p ->
  exists i n, tr_walk (tr_nodes t) 0 p = Ok (Some i) /\ nth_error (tr_nodes t) i = Some n /\ (nd_terminal SizeT n = true <-> exists k x, In (k, x) ops /\ p = k ++ [0%N]).
Proof. exact @terminal_ok. Qed.
Print Assumptions C66_default_partial.
Example C66_example : exists t n m, tr_run [([97; 0; 98], 1)]%N = Ok t /\ nth_error (tr_nodes t) 2 = Some n /\ nth_error (tr_nodes t) 4 = Some m /\ nd_terminal SizeT n = false /\ nd_terminal SizeT m = true.
Proof. do 3 eexists. split; [vm_compute; reflexivity|]. split; [reflexivity|]. split; [reflexivity|]. vm_compute. auto. Qed.
Theorem C66_int_refuted : exists (ops : list (list N * N)) t n, tr_run ops = Ok t /\ nth_error (tr_nodes t) 0 = Some n /\ nd_terminal Int32 n = true /\
  tr_walk (tr_nodes t) 0 [] = Ok (Some 0) /\ ~ exists k x, In (k, x) ops /\ [] = k ++ [0%N].
Proof.
  exists [([97], 1)]%N. do 2 eexists. split; [vm_compute; reflexivity|]. split; [reflexivity|]. split; [reflexivity|]. split; [vm_compute; reflexivity|].
  intros (k & x & _ & H). destruct k; discriminate.
Qed.
Print Assumptions C66_int_refuted.
