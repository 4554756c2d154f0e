(** C86, C87: histories of the compact hash table with erase. *)
From Coq Require Import List NArith ZArith Arith Bool.
From Verif Require Import Base Spec8 CHTModel CHTDel CHTDelLimits.
Import ListNotations.
Local Open Scope nat_scope.

(** until the table is completely full, erase only ever makes keys be forgotten, at most one per erase *)
Theorem C86_erase_history : forall kb VB VW L bb ops, kb <= 60 -> 1 <= L <= 99 -> 1 <= VW <= 63 -> VB = 0 \/ VB = VW ->
  1 <= bb <= 60 -> 1 <= 2 ^ bb * L / 100 -> (N.of_nat (length ops) < 2 ^ 50)%N -> Forall (tab_op_in kb VW) ops ->
  (exists pre post t, ops = pre ++ post /\ tab_run VB L kb (2 ^ bb) VW pre = Ok t /\ ch_used t = ch_bucket t) \/
  (exists t lost, tab_run VB L kb (2 ^ bb) VW ops = Ok t /\ length lost <= erases ops /\
    forall k, (k < 2 ^ N.of_nat kb)%N -> cht_get t k = Ok (if in_dec N.eq_dec k lost then None else last_tab k ops)).
Proof. exact (fun kb VB VW L bb ops a b c d => tab_correct kb VB VW L a b c d bb ops). Qed.
Print Assumptions C86_erase_history.
(** key 1 is forgotten at the growth of the table, key 5 is not although it is the one erased *)
Example C86_example :
  let ops := [TabSet 1 5; TabSet 5 3; TabErase 5; TabSet 9 2; TabSet 12 7; TabSet 3 1; TabSet 7 6]%N in
  (Forall (tab_op_in 4 4) ops /\ erases ops = 1) /\
  (do t <- tab_run 0 50 4 (2 ^ 3) 4 ops; do a <- cht_get t 1; do b <- cht_get t 5; do c <- cht_get t 7; Ok (a, b, c, ch_used t, ch_bucket t)) = Ok (None, Some 3%N, Some 6%N, 5, 16).
Proof. split; [|vm_compute; reflexivity]. split; [repeat constructor|reflexivity]. Qed.

(** with the defaults of the source a history of sets and erases fills the table, and the next insertion searches for a free slot for ever *)
Theorem C87_endless_refuted : exists ops k v t, Forall (tab_op_in 6 8) (ops ++ [TabSet k v]) /\ tab_run 8 50 6 8 8 ops = Ok t /\ ch_used t = ch_bucket t /\
  tab_run 8 50 6 8 8 (ops ++ [TabSet k v]) = Fuel /\ forall fuel i, i < ch_bucket t -> find_null fuel t i = Fuel.
Proof.
  exists hang_ops, 0%N, 1%N. destruct hang as (t & H). exists t. split; [repeat constructor|exact H].
Qed.
Print Assumptions C87_endless_refuted.
(** the number of elements wraps round below zero *)
Theorem C87_size_wraps_refuted : exists ops k t t', Forall (tab_op_in 6 8) (ops ++ [TabErase k]) /\ tab_run 8 50 6 32 8 ops = Ok t /\ ch_size t = 0 /\
  tab_run 8 50 6 32 8 (ops ++ [TabErase k]) = Ok t' /\ N.of_nat (ch_size t') = (2 ^ 64 - 1)%N.
Proof.
  exists under_ops, 23%N. destruct under as (t & t' & H). exists t, t'. split; [repeat constructor|exact H].
Qed.
Print Assumptions C87_size_wraps_refuted.
