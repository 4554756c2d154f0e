(** C116: compact hash tables that do not grow by themselves. *)
From Coq Require Import List NArith ZArith Arith Bool Lia.
From Verif Require Import Base Spec4 Spec15 Spec21 CHTModel CHTLoad.
Import ListNotations.
Local Open Scope nat_scope.

(** with fewer than 100 / L buckets the table is a map as long as its keys have room, or after a reserve for more keys than it has *)
Theorem C116_map : forall kb VB VW L bb ops, keys_fit kb bb -> L <= 99 -> 1 <= VW <= 63 -> VB = 0 \/ VB = VW ->
  bb <= 60 -> 2 ^ bb * L / 100 = 0 -> (N.of_nat (length ops) < 2 ^ 50)%N -> Forall (map_op_in kb VW) ops ->
  never_reserves ops \/ 1 <= L /\ Forall (reserve_fits kb L) ops -> fills_at_most (2 ^ bb) ops ->
  exists t, cht_run VB L kb (2 ^ bb) VW ops = Ok t /\
    (forall k, (k < 2 ^ N.of_nat kb)%N -> cht_get t k = Ok (last_set k ops)) /\ ch_size t = distinct_keys ops.
Proof. exact (fun kb VB VW L bb ops a b c d e f => load_map kb VB VW L bb (proj1 a) b c d e ltac:(destruct a; lia) f ops). Qed.
Print Assumptions C116_map.
(** one bucket holds one key; two buckets at 40 per cent, completely full; and with a reserve after the second key, which makes room *)
Example C116_map_ex :
  (keys_fit 59 0 /\ 2 ^ 0 * 99 / 100 = 0 /\ never_reserves [MapSet 5 1; MapReserve 1; MapSet 5 2]%N) /\
  (do t <- cht_run 0 99 59 (2 ^ 0) 4 [MapSet 5 1; MapReserve 1; MapSet 5 2]%N; do a <- cht_get t 5; do b <- cht_get t 6; Ok (a, b, ch_size t, ch_bucket t)) = Ok (Some 2%N, None, 1, 1) /\
  (do t <- cht_run 8 40 4 (2 ^ 1) 8 [MapSet 5 1; MapSet 6 1; MapSet 5 2]%N; do a <- cht_get t 5; do b <- cht_get t 7; Ok (a, b, ch_used t, ch_bucket t)) = Ok (Some 2%N, None, 2, 2) /\
  (Forall (reserve_fits 4 40) [MapSet 5 1; MapSet 6 1; MapReserve 3; MapSet 7 2]%N) /\
  (do t <- cht_run 8 40 4 (2 ^ 1) 8 [MapSet 5 1; MapSet 6 1; MapReserve 3; MapSet 7 2]%N; do a <- cht_get t 5; do b <- cht_get t 7; Ok (a, b, ch_size t, ch_bucket t)) = Ok (Some 1%N, Some 2%N, 3, 8).
Proof.
  split; [split; [split; apply Nat.leb_le; reflexivity|split; [reflexivity|]]|].
  - intros pre n post E. destruct pre as [|? [|? [|? [|? pre]]]]; simpl in E; try discriminate; injection E; intros; subst; try discriminate; vm_compute; lia.
  - split; [vm_compute; reflexivity|]. split; [vm_compute; reflexivity|]. split; [|vm_compute; reflexivity].
    apply Forall_forall. intros o Ho. cbn [In] in Ho. destruct Ho as [<-|[<-|[<-|[<-|[]]]]]; try exact I. right. left. lia.
Qed.

(** as many keys as buckets: storing one more searches for a free slot for ever *)
Theorem C116_full : forall kb VB VW L bb ops k v post, keys_fit kb bb -> L <= 99 -> 1 <= VW <= 63 -> VB = 0 \/ VB = VW ->
  bb <= 60 -> 2 ^ bb * L / 100 = 0 -> (N.of_nat (length ops) < 2 ^ 50)%N -> Forall (map_op_in kb VW) ops -> never_reserves ops -> distinct_keys ops = 2 ^ bb ->
  (k < 2 ^ N.of_nat kb)%N -> last_set k ops = None ->
  exists t, cht_run VB L kb (2 ^ bb) VW ops = Ok t /\ ch_used t = ch_bucket t /\ (forall fuel i, i < ch_bucket t -> find_null fuel t i = Fuel) /\
    cht_run VB L kb (2 ^ bb) VW (ops ++ MapSet k v :: post) = Fuel.
Proof. exact (fun kb VB VW L bb ops k v post a b c d e f => load_stuck kb VB VW L bb (proj1 a) b c d e ltac:(destruct a; lia) f ops k v post). Qed.
Print Assumptions C116_full.
(** the second key in a table of one bucket *)
Example C116_full_ex : distinct_keys [MapSet 5 1]%N = 2 ^ 0 /\ last_set 6 [MapSet 5 1]%N = None /\ cht_run 0 99 59 (2 ^ 0) 4 [MapSet 5 1; MapSet 6 1]%N = Fuel.
Proof. split; [reflexivity|]. split; [reflexivity|vm_compute; reflexivity]. Qed.
