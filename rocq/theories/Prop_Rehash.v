(** C142: how many elements the growth of a CHT moves. *)
From Coq Require Import List NArith ZArith Arith Bool Lia.
From Verif Require Import Base Spec4 Spec8 Spec34 CHTModel RehashModel Rehash.
Import ListNotations.
Local Open Scope nat_scope.

(** all calls of set together move at most two elements per key of the table, besides what the calls of reserve pay for *)
Theorem C142_moves : forall kb VB VW L bb ops, kb <= 60 -> 1 <= L <= 99 -> 1 <= VW <= 63 -> VB = 0 \/ VB = VW ->
  1 <= bb <= 60 -> 1 <= 2 ^ bb * L / 100 -> (N.of_nat (length ops) < 2 ^ 50)%N -> Forall (map_op_in kb VW) ops ->
  exists a r t, cht_run VB L kb (2 ^ bb) VW ops = Ok t /\ cht_run_count VB L kb (2 ^ bb) VW ops = Ok (a, r, t) /\ a <= 2 * distinct_keys ops + 2 * r /\ r <= 2 * reserves ops * distinct_keys ops.
Proof. exact rehash_cost. Qed.
Print Assumptions C142_moves.
(** a table with two slots, one of which may be used, that grows while eight keys come in *)
Example C142_moves_ex : let ops := map (fun k => MapSet k 1) [5; 9; 5; 12; 30; 2; 7; 1; 3]%N in
  (1 <= 2 ^ 1 * 50 / 100 /\ Forall (map_op_in 5 4) ops /\ distinct_keys ops = 8 /\ reserves ops = 0) /\
  (do x <- cht_run_count 0 50 5 (2 ^ 1) 4 ops; Ok (fst x, ch_size (snd x), ch_bucket (snd x))) = Ok (7, 0, 8, 16).
Proof. split; [|vm_compute; reflexivity]. split; [vm_compute; lia|]. split; [repeat constructor|]. split; vm_compute; reflexivity. Qed.
(** what the calls of reserve pay for is needed: six keys, and as many elements moved by set as one likes *)
Theorem C142_reserve : forall n, exists ops a r t, cht_run_count 1 87 3 8 1 ops = Ok (a, r, t) /\ Forall (map_op_in 3 1) ops /\ distinct_keys ops = 6 /\ reserves ops = n /\ a = 6 * n.
Proof. exact rehash_reserve. Qed.
Print Assumptions C142_reserve.
Example C142_reserve_ex : (do x <- cht_run_count 1 87 3 8 1 [MapSet 0 1; MapSet 1 1; MapSet 2 1; MapSet 3 1; MapSet 4 1; MapSet 5 1; MapSet 5 1; MapReserve 7; MapSet 5 0; MapReserve 7]%N; Ok (fst x)) = Ok (12, 12).
Proof. vm_compute. reflexivity. Qed.
