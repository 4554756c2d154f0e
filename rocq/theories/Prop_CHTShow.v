(** C156: the debug output of CHT *)
From Coq Require Import List NArith ZArith Arith Bool Lia.
From Verif Require Import Base Spec Spec4 Spec15 CHTModel CHTShowSpec CHTShowModel CHTShow.
Import ListNotations.
Local Open Scope nat_scope.

(** after any history of stores and reserves: one row for every slot; the first flag marks the homes of the keys stored; the rows with a flag are as many
    as the keys; the second flag is set as many times as there are keys beyond the first of their home, and never without the third; the last
    line counts the third flag. From 2^31 slots on the call is undefined. *)
Theorem C156_flags : forall kb VB VW L bb ops, keys_fit kb bb -> 1 <= L <= 99 -> 1 <= VW <= 63 -> VB = 0 \/ VB = VW ->
  1 <= bb <= 60 -> 1 <= 2 ^ bb * L / 100 -> (N.of_nat (length ops) < 2 ^ 50)%N -> Forall (map_op_in kb VW) ops -> Forall (reserve_fits kb L) ops ->
  exists t rows c, cht_run VB L kb (2 ^ bb) VW ops = Ok t /\ cht_print t = (if (N.of_nat (ch_bucket t) <? 2 ^ 31)%N then Ok (rows, c) else UB) /\
    length rows = ch_bucket t /\
    (forall b, b < ch_bucket t -> (fst (fst (nth b rows (false, false, false))) = true <-> exists k, In k (map_keys ops) /\ home kb (ch_bucket t) k = b)) /\
    count_if (fun r : bool * bool * bool => fst (fst r) || snd (fst r) || snd r) rows = distinct_keys ops /\
    count_if (fun r : bool * bool * bool => snd (fst r)) rows + length (nodup Nat.eq_dec (map (home kb (ch_bucket t)) (map_keys ops))) = distinct_keys ops /\
    (forall r, In r rows -> snd (fst r) = true -> snd r = true) /\
    c = count_if (fun r : bool * bool * bool => snd r) rows.
Proof. exact map_flags. Qed.
Print Assumptions C156_flags.
(** five keys in eight slots *)
Example C156_flags_ex : let ops := [MapSet 1 1; MapSet 2 2; MapSet 3 3; MapSet 4 1; MapSet 17 1; MapSet 2 7]%N in
  (keys_fit 6 3 /\ Forall (map_op_in 6 8) ops /\ Forall (reserve_fits 6 80) ops) /\ map (home 6 8) (map_keys ops) = [2; 2; 1; 4; 1; 2] /\
  (do t <- cht_run 8 80 6 8 8 ops; cht_print t) = Ok ([(false, false, false); (true, false, false); (true, true, true); (false, false, true); (true, true, true); (false, false, true); (false, false, false); (false, false, false)], 4).
Proof. split; [split; [split; lia|split; repeat (constructor; [cbn; auto; lia|]); constructor]|]. vm_compute. auto. Qed.
