(** C41, C42, C62: the compact hash table. *)
From Coq Require Import List NArith ZArith Arith Bool.
From Verif Require Import Base Spec4 CHTModel CHTRun CHTErase CHTLimits.
Import ListNotations.
Local Open Scope nat_scope.

Theorem C41_map : forall kb VB VW L bb ops, kb <= 60 -> 1 <= L <= 99 -> 1 <= VW <= 63 -> VB = 0 \/ VB = VW ->
  1 <= bb <= 60 -> 1 <= 2 ^ bb * L / 100 -> (N.of_nat (length ops) < 2 ^ 50)%N -> Forall (map_op_in kb VW) ops ->
  exists t, cht_run VB L kb (2 ^ bb) VW ops = Ok t /\
    (forall k, (k < 2 ^ N.of_nat kb)%N -> cht_get t k = Ok (last_set k ops)) /\ ch_size t = distinct_keys ops.
Proof. exact (fun kb VB VW L bb ops a b c d => map_correct kb VB VW L a b c d bb ops). Qed.
Print Assumptions C41_map.
(** the defaults of the source (8 buckets, 50 per cent), with growth and an overwritten key *)
Example C41_example :
  let ops := [MapSet 5 1; MapSet 9 2; MapSet 5 3; MapSet 12 4; MapSet 30 5; MapSet 2 6]%N in
  (50 <= 99 /\ 1 <= 2 ^ 3 * 50 / 100 /\ Forall (map_op_in 5 4) ops) /\
  (do t <- cht_run 0 50 5 (2 ^ 3) 4 ops; do a <- cht_get t 5; do b <- cht_get t 12; do c <- cht_get t 1; Ok (a, b, c, ch_size t, ch_bucket t)) = Ok (Some 3%N, Some 4%N, None, 5, 16).
Proof. split; [|vm_compute; reflexivity]. repeat split; try (apply Nat.leb_le; vm_compute; reflexivity). repeat constructor. Qed.

(** erase does not change what any lookup returns; in particular the erased key itself is still found *)
Theorem C42_lookups_unchanged_partial : forall kb VB VW L bb ops k, kb <= 60 -> 1 <= L <= 99 -> 1 <= VW <= 63 -> VB = 0 \/ VB = VW ->
  1 <= bb <= 60 -> 1 <= 2 ^ bb * L / 100 -> (N.of_nat (length ops) < 2 ^ 50)%N -> Forall (map_op_in kb VW) ops -> (k < 2 ^ N.of_nat kb)%N ->
  exists t t', cht_run VB L kb (2 ^ bb) VW ops = Ok t /\ cht_erase VB L t k = Ok t' /\
    forall k', (k' < 2 ^ N.of_nat kb)%N -> cht_get t' k' = Ok (last_set k' ops).
Proof. exact (fun kb VB VW L bb ops k a b c d => erase_lookups kb VB VW L a b c d bb ops k). Qed.
Print Assumptions C42_lookups_unchanged_partial.
Example C42_example :
  (do t <- cht_run 0 50 4 8 4 [MapSet 1 5; MapSet 5 3]%N; do t' <- cht_erase 0 50 t 5; do a <- cht_get t' 1; do b <- cht_get t' 2; Ok (a, b)) = Ok (Some 5%N, None).
Proof. vm_compute. reflexivity. Qed.

Theorem C42_erased_key_found_refuted : exists ops k, Forall (map_op_in 4 4) ops /\ (k < 2 ^ 4)%N /\
  exists t t', cht_run 0 50 4 8 4 ops = Ok t /\ cht_erase 0 50 t k = Ok t' /\ cht_get t' k <> Ok None.
Proof.
  exists [MapSet 1 5]%N, 1%N. split; [repeat constructor|]. split; [reflexivity|]. eexists. eexists. split; [vm_compute; reflexivity|]. split; [vm_compute; reflexivity|]. vm_compute. discriminate.
Qed.
Print Assumptions C42_erased_key_found_refuted.
(** erasing key 5 makes the table forget key 1 at its next growth *)
Theorem C42_other_key_lost_refuted : exists ops k k' n, Forall (map_op_in 4 4) ops /\ (k < 2 ^ 4)%N /\ k' <> k /\
  exists t t1 t2 v, cht_run 0 50 4 8 4 ops = Ok t /\ cht_get t k' = Ok (Some v) /\ cht_erase 0 50 t k = Ok t1 /\ cht_reserve 0 50 t1 n = Ok t2 /\ cht_get t2 k' = Ok None.
Proof.
  exists [MapSet 1 5; MapSet 5 3]%N, 5%N, 1%N, 2. split; [repeat constructor|]. split; [reflexivity|]. split; [discriminate|]. eexists. eexists. eexists. eexists.
  split; [vm_compute; reflexivity|]. split; [vm_compute; reflexivity|]. split; [vm_compute; reflexivity|]. split; vm_compute; reflexivity.
Qed.
Print Assumptions C42_other_key_lost_refuted.

(** outside the hypotheses of C41 *)
Theorem C62_wide_keys_refuted : exists kb k v, kb <= 63 /\ (k < 2 ^ N.of_nat kb)%N /\ cht_run 8 50 kb 8 8 [MapSet k v] = UB.
Proof. exists 63, 5%N, 1%N. split; [apply Nat.leb_le; reflexivity|]. split; vm_compute; reflexivity. Qed.
Print Assumptions C62_wide_keys_refuted.
(** two buckets at 40 per cent: the table never grows, and the third insertion searches for a free slot for ever *)
Theorem C62_no_growth_refuted : exists t, cht_run 8 40 4 2 8 [MapSet 5 1; MapSet 6 1]%N = Ok t /\ ch_size t = 2 /\ cht_run 8 40 4 2 8 [MapSet 5 1; MapSet 6 1; MapSet 7 1]%N = Fuel /\
  forall fuel i, i < 2 -> find_null fuel t i = Fuel.
Proof. exact full_table. Qed.
Print Assumptions C62_no_growth_refuted.
