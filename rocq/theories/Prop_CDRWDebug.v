(** C95, C96: CDRWArray and CDRWVector in a build with assertions on. *)
From Coq Require Import List NArith ZArith Arith Bool Lia.
From Verif Require Import Base Spec4 Spec8 Spec9 Spec11 CHTModel CDRWModel CDRWDebugModel CDRWDebug CDRWVecDebug.
Import ListNotations.
Local Open Scope nat_scope.

(** writing never fails an assertion, and reading fails one exactly at the elements which the release build has lost *)
Theorem C95_array : forall n ws, 1 <= n -> (N.of_nat n <= 2 ^ 50)%N -> Forall (fun w => fst w < n /\ (snd w < 2 ^ 64)%N) ws -> (N.of_nat (length ws) < 2 ^ 49)%N ->
  (cdrw_run n ws <> UB -> cdrw_run_d n ws = cdrw_run n ws) /\
  ((exists pre post a, ws = pre ++ post /\ cdrw_run n pre = Ok a /\ exists t, In t (cd_tables a) /\ ch_used t = ch_bucket t) \/
   (existsb (fun w => (2 ^ 63 <=? snd w)%N) ws = true) \/
   exists a, cdrw_run_d n ws = Ok a /\ cdrw_run n ws = Ok a /\
     forall i, i < n -> (cdrw_get a i = Ok (last_value ws i) /\ cdrw_get_d a i = Ok (last_value ws i)) \/ (cdrw_get a i = Ok 0%N /\ last_value ws i <> 0%N /\ cdrw_get_d a i = Throw)).
Proof. exact (fun n ws a b => array_debug n a b ws). Qed.
Print Assumptions C95_array.
(** the history of C88: element 6 is lost *)
Example C95_example : let ws := [(6, 2%N); (3, 1%N); (3, 0%N); (0, 3%N); (1, 1%N); (1, 0%N)] in
  (do a <- cdrw_run_d 8 ws; mapM (cdrw_get_d a) [0; 1; 3; 7]) = Ok [3; 0; 0; 0]%N /\ (do a <- cdrw_run_d 8 ws; cdrw_get_d a 6) = Throw /\ (do a <- cdrw_run 8 ws; cdrw_get a 6) = Ok 0%N.
Proof. cbv zeta. split; [vm_compute; reflexivity|]. split; vm_compute; reflexivity. Qed.

(** until one of the tables is completely full: an assertion fails exactly at the first operation that brings in a tape whose size is not a power of two, or copies an element already lost *)
Theorem C96_vector : forall n ops s, 1 <= n -> (N.of_nat n <= 2 ^ 48)%N -> (N.of_nat (length ops) <= 2 ^ 48)%N -> steps tape_step (Tape n (repeat 0%N n) 0) ops = Some s ->
  (exists pre post v, ops = pre ++ post /\ cdv_run_d n pre = Ok v /\ exists t, In t (cd_tables (dv_arr v)) /\ ch_used t = ch_bucket t) \/
  (exists pre o post v s1 c, ops = pre ++ o :: post /\ cdv_run_d n pre = Ok v /\ steps tape_step (Tape n (repeat 0%N n) 0) pre = Some s1 /\ new_capacity s1 o = Some c /\
     (~ power_of_two c \/ exists i, i < tp_size s1 /\ cdv_get v i <> Ok (nth i (tp_cells s1) 0%N)) /\ cdv_run_d n ops = Throw) \/
  (exists v, cdv_run_d n ops = Ok v /\ cdv_run n ops = Ok v /\
     (forall i, i < length (tp_cells s) -> (cdv_get v i = Ok (nth i (tp_cells s) 0%N) /\ cdv_get_d v i = Ok (nth i (tp_cells s) 0%N)) \/ (cdv_get v i = Ok 0%N /\ nth i (tp_cells s) 0%N <> 0%N /\ cdv_get_d v i = Throw)) /\
     forall pre o post s1 c, ops = pre ++ o :: post -> steps tape_step (Tape n (repeat 0%N n) 0) pre = Some s1 -> new_capacity s1 o = Some c ->
       power_of_two c /\ exists v1, cdv_run_d n pre = Ok v1 /\ forall i, i < tp_size s1 -> cdv_get v1 i = Ok (nth i (tp_cells s1) 0%N)).
Proof. exact vec_debug. Qed.
Print Assumptions C96_vector.
(** three elements cannot grow to six; eight grow to sixteen; not if element 6 is lost; five elements cannot shrink to fit *)
Example C96_example :
  cdv_run_d 3 [DPush 1%N] = Throw /\ (do v <- cdv_run_d 8 [DSet 6 2%N; DPush 9%N]; mapM (cdv_get_d v) [0; 6; 8]) = Ok [0; 2; 9]%N /\
  (let ops := [DSet 6 2%N; DSet 3 1%N; DSet 3 0%N; DSet 0 3%N; DSet 1 1%N; DSet 1 0%N] in
   (do v <- cdv_run_d 8 ops; Ok (dv_cap v)) = Ok 8 /\ cdv_run_d 8 (ops ++ [DPush 9%N]) = Throw /\ (do v <- cdv_run 8 (ops ++ [DPush 9%N]); Ok (dv_cap v)) = Ok 16) /\
  cdv_run_d 8 [DResize 5; DShrink] = Throw.
Proof. cbv zeta. repeat split; vm_compute; reflexivity. Qed.
(** nothing can be pushed into an empty vector *)
Theorem C96_empty : forall x post, cdv_run_d 0 (DPush x :: post) = Throw.
Proof. reflexivity. Qed.
Print Assumptions C96_empty.
