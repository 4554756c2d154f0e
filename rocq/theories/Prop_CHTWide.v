(** C108: the compact hash table for every key width. *)
From Coq Require Import List NArith ZArith Arith Bool.
From Verif Require Import Base Spec4 Spec15 CHTModel CHTRun CHTWide.
Import ListNotations.
Local Open Scope nat_scope.

Theorem C108_map : forall kb VB VW L bb ops, keys_fit kb bb -> 1 <= L <= 99 -> 1 <= VW <= 63 -> VB = 0 \/ VB = VW ->
  1 <= bb <= 60 -> 1 <= 2 ^ bb * L / 100 -> (N.of_nat (length ops) < 2 ^ 50)%N -> Forall (map_op_in kb VW) ops -> Forall (reserve_fits kb L) ops ->
  exists t, cht_run VB L kb (2 ^ bb) VW ops = Ok t /\
    (forall k, (k < 2 ^ N.of_nat kb)%N -> cht_get t k = Ok (last_set k ops)) /\ ch_size t = distinct_keys ops.
Proof. exact wide_map. Qed.
Print Assumptions C108_map.
(** keys of 63 bits in 16 buckets, with growth, an overwritten key and a reserve *)
Example C108_map_ex :
  let ops := [MapSet (2 ^ 63 - 1) 1; MapSet 9 2; MapSet (2 ^ 63 - 1) 3; MapReserve 9; MapSet (2 ^ 62) 4]%N in
  (keys_fit 63 4 /\ 1 <= 2 ^ 4 * 50 / 100 /\ Forall (map_op_in 63 4) ops /\ Forall (reserve_fits 63 50) ops) /\
  (do t <- cht_run 0 50 63 (2 ^ 4) 4 ops; do a <- cht_get t (2 ^ 63 - 1)%N; do b <- cht_get t (2 ^ 62)%N; do c <- cht_get t 1; Ok (a, b, c, ch_size t, ch_bucket t)) = Ok (Some 3%N, Some 4%N, None, 3, 32).
Proof.
  split; [|vm_compute; reflexivity]. split; [split; apply Nat.leb_le; reflexivity|]. split; [apply Nat.leb_le; reflexivity|]. split; [repeat constructor|].
  apply Forall_forall. intros o Ho. cbn [In] in Ho. destruct Ho as [<-|[<-|[<-|[<-|[<-|[]]]]]]; try exact I. right. right. apply Nat.leb_le. reflexivity.
Qed.

(** the first store is defined exactly for these widths, whatever the key and the value *)
Theorem C108_first_store : forall VB L kb VW bb k v, 1 <= L <= 99 -> VB = 0 \/ VB = VW -> 1 <= bb <= 60 -> 1 <= 2 ^ bb * L / 100 ->
  (k < 2 ^ N.of_nat kb)%N -> (v < 2 ^ N.of_nat VW)%N ->
  (keys_fit kb bb /\ 1 <= VW <= 63 -> exists t, cht_run VB L kb (2 ^ bb) VW [MapSet k v] = Ok t) /\
  (~ (keys_fit kb bb /\ 1 <= VW <= 63) -> cht_run VB L kb (2 ^ bb) VW [MapSet k v] = UB).
Proof. exact first_set. Qed.
Print Assumptions C108_first_store.
(** keys of 63 bits in the default 8 buckets; values of 64 bits *)
Example C108_first_store_ex : ~ keys_fit 63 3 /\ cht_run 8 50 63 (2 ^ 3) 8 [MapSet 5 1]%N = UB /\ keys_fit 62 3 /\ (exists t, cht_run 8 50 62 (2 ^ 3) 8 [MapSet 5 1]%N = Ok t) /\
  cht_run 64 50 20 (2 ^ 3) 64 [MapSet 5 1]%N = UB.
Proof.
  split; [intros (_ & H); apply Nat.leb_le in H; discriminate|]. split; [vm_compute; reflexivity|]. split; [split; apply Nat.leb_le; reflexivity|].
  split; [eexists|]; vm_compute; reflexivity.
Qed.

(** a lookup in the new table likewise *)
Theorem C108_first_lookup : forall VB L kb VW bb k, 1 <= L <= 99 -> VB = 0 \/ VB = VW -> 1 <= bb <= 60 -> (k < 2 ^ N.of_nat kb)%N ->
  (keys_fit kb bb -> (do t <- cht_start VB L kb (2 ^ bb) VW; cht_get t k) = Ok None) /\
  (~ keys_fit kb bb -> (do t <- cht_start VB L kb (2 ^ bb) VW; cht_get t k) = UB).
Proof. exact first_get. Qed.
Print Assumptions C108_first_lookup.
Example C108_first_lookup_ex : (do t <- cht_start 8 50 63 (2 ^ 4) 8; cht_get t 77) = Ok None /\ (do t <- cht_start 8 50 63 (2 ^ 3) 8; cht_get t 77) = UB.
Proof. split; vm_compute; reflexivity. Qed.

(** reserve can shrink the table: for more entries than it has, but fewer than the key width needs, the next store is undefined *)
Theorem C108_reserve_shrinks : forall VB L kb VW bb ops n k v, keys_fit kb bb -> 1 <= L <= 99 -> 1 <= VW <= 63 -> VB = 0 \/ VB = VW ->
  1 <= bb <= 60 -> 1 <= 2 ^ bb * L / 100 -> (N.of_nat (length ops) < 2 ^ 50)%N -> Forall (map_op_in kb VW) ops -> Forall (reserve_fits kb L) ops ->
  distinct_keys ops < n -> (N.of_nat n < 2 ^ 50)%N -> ~ reserve_fits kb L (MapReserve n) ->
  cht_run VB L kb (2 ^ bb) VW (ops ++ [MapReserve n; MapSet k v]) = UB.
Proof. exact wide_shrink. Qed.
Print Assumptions C108_reserve_shrinks.
Example C108_reserve_shrinks_ex : keys_fit 63 4 /\ ~ reserve_fits 63 50 (MapReserve 3) /\ cht_run 8 50 63 (2 ^ 4) 8 ([MapSet 7 1; MapSet 9 1] ++ [MapReserve 3; MapSet 11 2])%N = UB /\
  (exists t, cht_run 8 50 63 (2 ^ 4) 8 ([MapSet 7 1; MapSet 9 1] ++ [MapReserve 5; MapSet 11 2])%N = Ok t).
Proof.
  split; [split; apply Nat.leb_le; reflexivity|]. split; [|split; [vm_compute; reflexivity|eexists; vm_compute; reflexivity]].
  intros [H|[H|H]]; [discriminate| |]; apply Nat.leb_le in H; discriminate.
Qed.
