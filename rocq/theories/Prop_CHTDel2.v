(** C117: histories of the compact hash table with erase, to the end. *)
From Coq Require Import List NArith ZArith Arith Bool.
From Verif Require Import Base Spec8 CHTModel CHTDel CHTDelLimits.
Import ListNotations.
Local Open Scope nat_scope.

(** either a new key is stored in a table without a free slot, which never ends; or all operations end, and at most one key per erase is forgotten *)
Theorem C117_erase_history_exact : forall kb VB VW L bb ops, kb <= 60 -> 1 <= L <= 99 -> 1 <= VW <= 63 -> VB = 0 \/ VB = VW ->
  1 <= bb <= 60 -> 1 <= 2 ^ bb * L / 100 -> (N.of_nat (length ops) < 2 ^ 50)%N -> Forall (tab_op_in kb VW) ops ->
  (exists pre k v post t, ops = pre ++ TabSet k v :: post /\ tab_run VB L kb (2 ^ bb) VW pre = Ok t /\ ch_used t = ch_bucket t /\ cht_get t k = Ok None /\
    (forall fuel i, i < ch_bucket t -> find_null fuel t i = Fuel) /\ tab_run VB L kb (2 ^ bb) VW ops = Fuel) \/
  (exists t lost, tab_run VB L kb (2 ^ bb) VW ops = Ok t /\ length lost <= erases ops /\
    forall k, (k < 2 ^ N.of_nat kb)%N -> cht_get t k = Ok (if in_dec N.eq_dec k lost then None else last_tab k ops)).
Proof. exact (fun kb VB VW L bb ops a b c d => tab_exact kb VB VW L a b c d bb ops). Qed.
Print Assumptions C117_erase_history_exact.
(** 8 buckets at 50 per cent: the table has shrunk to 4 slots, all taken, keys 7 and 53 are forgotten; the next new key never ends, storing key 3 again does *)
Example C117_example :
  let ops := [TabSet 37 1; TabSet 7 1; TabErase 2; TabSet 3 1; TabErase 2; TabSet 53 1; TabErase 14; TabSet 55 1; TabSet 36 1]%N in
  Forall (tab_op_in 6 8) ops /\ tab_run 8 50 6 (2 ^ 3) 8 (ops ++ [TabSet 0 1; TabSet 1 1])%N = Fuel /\
  (do t <- tab_run 8 50 6 (2 ^ 3) 8 (ops ++ [TabSet 3 9])%N; do a <- cht_get t 3; do b <- cht_get t 36; do c <- cht_get t 7; Ok (a, b, c, ch_used t, ch_bucket t)) = Ok (Some 9%N, Some 1%N, None, 4, 4).
Proof. split; [repeat constructor|]. split; vm_compute; reflexivity. Qed.
