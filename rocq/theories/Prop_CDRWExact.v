(** C118, C119: CDRWArray and CDRWVector under arbitrary operations, to the end. *)
From Coq Require Import List NArith ZArith Arith Bool.
From Verif Require Import Base Spec4 Spec8 Spec9 Spec11 CHTModel CDRWModel CDRWDebugModel CDRWAll CDRWVecAll CDRWDebug CDRWVecDebug.
Import ListNotations.
Local Open Scope nat_scope.

(** either some write meets a table without a free slot and never ends, or all do, and at most one element per change of a bit length reads 0; values of 64 bits are undefined *)
Theorem C118_all_writes_exact : forall n ws, 1 <= n -> (N.of_nat n <= 2 ^ 50)%N -> Forall (fun w => fst w < n /\ (snd w < 2 ^ 64)%N) ws -> (N.of_nat (length ws) < 2 ^ 49)%N ->
  (exists pre i v post a, ws = pre ++ (i, v) :: post /\ cdrw_run n pre = Ok a /\
    ((v < 2 ^ 63)%N /\ exists t, nth_error (cd_tables a) (N.to_nat (N.size v) - 1) = Some t /\ ch_used t = ch_bucket t /\ forall fuel j, j < ch_bucket t -> find_null fuel t j = Fuel) /\
    cdrw_run n ws = Fuel) \/
  (if existsb (fun w => (2 ^ 63 <=? snd w)%N) ws then cdrw_run n ws = UB else
   exists a lost, cdrw_run n ws = Ok a /\ length lost <= width_changes ws /\ forall i, i < n -> cdrw_get a i = Ok (if in_dec Nat.eq_dec i lost then 0%N else last_value ws i)).
Proof. exact (fun n ws a b => all_exact n a b ws). Qed.
Print Assumptions C118_all_writes_exact.
(** 64 elements: the table of the values of two bits is full; the next new one never ends, while those in it can be written, and elements of other lengths as well *)
Example C118_example :
  let ws := [(37, 2%N); (7, 2%N); (2, 1%N); (2, 0%N); (3, 2%N); (2, 1%N); (2, 0%N); (53, 2%N); (14, 1%N); (14, 0%N); (55, 2%N); (36, 2%N)] in
  (Forall (fun w => fst w < 64 /\ (snd w < 2 ^ 64)%N) ws /\ width_changes ws = 3) /\
  cdrw_run 64 (ws ++ [(0, 2%N); (1, 1%N)]) = Fuel /\
  (do a <- cdrw_run 64 (ws ++ [(36, 3%N); (5, 9%N)]); mapM (cdrw_get a) [36; 5; 3; 7]) = Ok [3; 9; 2; 0]%N.
Proof. split; [split; [repeat constructor|reflexivity]|]. split; vm_compute; reflexivity. Qed.

(** only pushes and writes can fail to end *)
Theorem C119_all_operations_exact : forall n ops s, 1 <= n -> (N.of_nat n <= 2 ^ 48)%N -> (N.of_nat (length ops) <= 2 ^ 48)%N -> steps tape_step (Tape n (repeat 0%N n) 0) ops = Some s ->
  (exists pre o x post v, ops = pre ++ o :: post /\ (o = DPush x \/ exists i, o = DSet i x) /\ cdv_run n pre = Ok v /\
    ((x < 2 ^ 63)%N /\ exists t, nth_error (cd_tables (dv_arr v)) (N.to_nat (N.size x) - 1) = Some t /\ ch_used t = ch_bucket t /\ forall fuel j, j < ch_bucket t -> find_null fuel t j = Fuel) /\
    cdv_run n ops = Fuel) \/
  (exists v lost, cdv_run n ops = Ok v /\ dv_size v = tp_size s /\ dv_cap v = length (tp_cells s) /\ tp_size s <= length (tp_cells s) /\ length lost <= tp_changes s /\
     forall i, i < length (tp_cells s) -> cdv_get v i = Ok (if in_dec Nat.eq_dec i lost then 0%N else nth i (tp_cells s) 0%N)).
Proof. exact vec_exact. Qed.
Print Assumptions C119_all_operations_exact.
(** with the full table of C118 the next write never ends; a reallocation makes room again *)
Example C119_example :
  let ops := [DSet 37 2; DSet 7 2; DSet 2 1; DSet 2 0; DSet 3 2; DSet 2 1; DSet 2 0; DSet 53 2; DSet 14 1; DSet 14 0; DSet 55 2; DSet 36 2]%N in
  cdv_run 64 (ops ++ [DSet 0 2])%N = Fuel /\ cdv_run 64 (ops ++ [DPop; DPush 3])%N = Fuel /\
  (do v <- cdv_run 64 (ops ++ [DPush 3; DSet 0 2])%N; mapM (cdv_get v) [0; 36; 64; 7]) = Ok [2; 2; 3; 0]%N.
Proof. split; [vm_compute; reflexivity|]. split; vm_compute; reflexivity. Qed.

(** with assertions on: a write that never ends, in both builds; or a reallocation that fails an assertion; or neither *)
Theorem C119_assertions_exact : forall n ops s, 1 <= n -> (N.of_nat n <= 2 ^ 48)%N -> (N.of_nat (length ops) <= 2 ^ 48)%N -> steps tape_step (Tape n (repeat 0%N n) 0) ops = Some s ->
  (exists pre o x post v, ops = pre ++ o :: post /\ (o = DPush x \/ exists i, o = DSet i x) /\ cdv_run_d n pre = Ok v /\ cdv_run n pre = Ok v /\
    ((x < 2 ^ 63)%N /\ exists t, nth_error (cd_tables (dv_arr v)) (N.to_nat (N.size x) - 1) = Some t /\ ch_used t = ch_bucket t /\ forall fuel j, j < ch_bucket t -> find_null fuel t j = Fuel) /\
    cdv_run_d n ops = Fuel /\ cdv_run n ops = Fuel) \/
  (exists pre o post v s1 c, ops = pre ++ o :: post /\ cdv_run_d n pre = Ok v /\ steps tape_step (Tape n (repeat 0%N n) 0) pre = Some s1 /\ new_capacity s1 o = Some c /\
     (~ power_of_two c \/ exists i, i < tp_size s1 /\ cdv_get v i <> Ok (nth i (tp_cells s1) 0%N)) /\ cdv_run_d n ops = Throw) \/
  (exists v, cdv_run_d n ops = Ok v /\ cdv_run n ops = Ok v /\
     (forall i, i < length (tp_cells s) -> (cdv_get v i = Ok (nth i (tp_cells s) 0%N) /\ cdv_get_d v i = Ok (nth i (tp_cells s) 0%N)) \/ (cdv_get v i = Ok 0%N /\ nth i (tp_cells s) 0%N <> 0%N /\ cdv_get_d v i = Throw)) /\
     forall pre o post s1 c, ops = pre ++ o :: post -> steps tape_step (Tape n (repeat 0%N n) 0) pre = Some s1 -> new_capacity s1 o = Some c ->
       power_of_two c /\ exists v1, cdv_run_d n pre = Ok v1 /\ forall i, i < tp_size s1 -> cdv_get v1 i = Ok (nth i (tp_cells s1) 0%N)).
Proof. exact vec_debug_exact. Qed.
Print Assumptions C119_assertions_exact.
(** the reallocation that made room above copies a lost element, which fails an assertion *)
Example C119_assertions_ex :
  let ops := [DSet 37 2; DSet 7 2; DSet 2 1; DSet 2 0; DSet 3 2; DSet 2 1; DSet 2 0; DSet 53 2; DSet 14 1; DSet 14 0; DSet 55 2; DSet 36 2]%N in
  cdv_run_d 64 (ops ++ [DSet 0 2])%N = Fuel /\ cdv_run_d 64 (ops ++ [DPush 3; DSet 0 2])%N = Throw.
Proof. split; vm_compute; reflexivity. Qed.
