(** C138: how many elements the searches for a key read. In each theorem the first half says that the counting version does the same. *)
From Coq Require Import List NArith ZArith Arith Bool Lia.
From Verif Require Import Base Spec Spec2 CostBase BitUtilModel BitVectorModel SuccinctModel SamcModel TrieModel FoModel MultiBitModel QueryCostModel SearchCostModel SearchCost.
Import ListNotations.
Local Open Scope nat_scope.

Theorem C138_samc_accept : forall s q, rmap snd (counted (sm_accept_c s q)) = sm_accept s q /\ forall k x, counted (sm_accept_c s q) = Ok (k, x) -> k <= 4 * (length q + 1).
Proof. intros. exact (costs_both _ _ _ _ (accept_cost q s)). Qed.
Print Assumptions C138_samc_accept.
Theorem C138_dict_lookup : forall t q, rmap snd (counted (sd_lookup_c t q)) = sd_lookup t q /\ forall k x, counted (sd_lookup_c t q) = Ok (k, x) -> k <= 4 * (length q + 1) + 3.
Proof. intros. exact (costs_both _ _ _ _ (lookup_cost q t)). Qed.
Print Assumptions C138_dict_lookup.
(** here the binary search of std::upper_bound is carried out, where SamcModel.v counts the smaller elements *)
Theorem C138_dict_access : forall selw fuel K t i, sd_build fuel K = Ok t ->
  rmap snd (counted (sd_access_c selw t i)) = sd_access selw t i /\
  forall k text, counted (sd_access_c selw t i) = Ok (k, text) ->
   k <= 12 + Nat.log2_up (length (sm_storage (sd_samc t)) / 512 + 1) + Nat.log2_up (length (sm_head (sd_samc t)) + 1) + 2 * (length text + 1).
Proof. exact dict_access. Qed.
Print Assumptions C138_dict_access.
Example C138_dict_ex : let K := [[97]; [97; 98; 255]; [98]]%N in exists t, sd_build 5 K = Ok t /\ counted (sd_lookup_c t [97; 98; 255]%N) = Ok (19, Some 2%N) /\
  counted (sm_accept_c (sd_samc t) [97; 255]%N) = Ok (6, false) /\ (exists k, counted (sd_access_c (sel_bmi2 ctz64) t 2) = Ok (k, [97; 98; 255]%N) /\ 8 <= k).
Proof. cbv zeta. eexists. split; [vm_compute; reflexivity|]. split; [vm_compute; reflexivity|]. split; [vm_compute; reflexivity|]. eexists. split; [vm_compute; reflexivity|lia]. Qed.

(** Trie: the nodes visited, and how many there are *)
Theorem C138_trie_traverse : forall A st (t : trie A) q, rmap snd (counted (tr_traverse_index_c st t q)) = tr_traverse_index st t q /\
  forall k x, counted (tr_traverse_index_c st t q) = Ok (k, x) -> k <= length q + 2.
Proof. intros. exact (costs_both _ _ _ _ (traverse_cost A st t q)). Qed.
Print Assumptions C138_trie_traverse.
Theorem C138_trie_size : forall A (ops : list (list N * A)) t, tr_run ops = Ok t ->
  length (tr_nodes t) <= 1 + list_sum_nat (map (fun o => length (fst o) + 1) ops) /\ length (tr_store t) <= length ops.
Proof. exact trie_size. Qed.
Print Assumptions C138_trie_size.
Example C138_trie_ex : exists t, tr_run [([97; 98], 1); ([97; 99], 2); ([97; 98], 3)]%N = Ok t /\ length (tr_nodes t) = 6 /\ length (tr_store t) = 2 /\
  counted (tr_traverse_index_c SizeT t [97; 98]%N) = Ok (4, 0%N) /\ counted (tr_traverse_index_c SizeT t [98; 97]%N) = Ok (1, (2 ^ 64 - 1)%N).
Proof. eexists. split; [vm_compute; reflexivity|]. vm_compute. auto. Qed.

Theorem C138_oracle : forall beyond o w, rmap snd (counted (fo_accept_c beyond o w)) = fo_accept beyond o w /\ forall k x, counted (fo_accept_c beyond o w) = Ok (k, x) -> k <= 4 * length w.
Proof. intros. exact (costs_both _ _ _ _ (fo_accept_cost w beyond o 0)). Qed.
Print Assumptions C138_oracle.
Example C138_oracle_ex : exists o, fo_build 1000 [97; 98; 98; 97]%N = Ok o /\ counted (fo_accept_c [] o [98; 97]%N) = Ok (8, true) /\ counted (fo_accept_c [] o [97; 98; 98]%N) = Ok (3, true).
Proof. eexists. split; [vm_compute; reflexivity|]. vm_compute. auto. Qed.

(** MultiBitVector, for every symbol width *)
Theorem C138_multibit_get : forall U v i, rmap snd (counted (mb_get_c U v i)) = mb_get U v i /\ forall k x, counted (mb_get_c U v i) = Ok (k, x) -> k <= 1.
Proof. intros. exact (costs_both _ _ _ _ (mb_get_cost U v i)). Qed.
Print Assumptions C138_multibit_get.
Theorem C138_multibit_rank : forall U v i, rmap snd (counted (mb_rank_c U v i)) = mb_rank U v i /\ forall k x, counted (mb_rank_c U v i) = Ok (k, x) -> k <= 4.
Proof. intros. exact (costs_both _ _ _ _ (mb_rank_cost U v i)). Qed.
Print Assumptions C138_multibit_rank.
Example C138_multibit_ex : exists v, (do v <- mb_run 2 (map (fun i => MBSet i (N.of_nat (i mod 4))) (seq 0 40)); mb_build 2 v) = Ok v /\ counted (mb_rank_c 2 v 39) = Ok (4, 9%N) /\ counted (mb_get_c 2 v 38) = Ok (1, 2%N).
Proof. eexists. split; [vm_compute; reflexivity|]. vm_compute. auto. Qed.
