(** Properties C34, C35 and C36 (InitializableArray.hpp). *)
From Coq Require Import List NArith ZArith Lia Bool Arith.
From Verif Require Import Base Spec3 InitArrayModel InitArrayProof.
Import ListNotations.
Local Open Scope nat_scope.

(** ** C34 *)
Theorem C34_folklore : forall (A : Type) (zero : A) n v ops, Forall (ia_op_in n) ops ->
  exists s, fk_run zero n v ops = Ok s /\ fk_size s = n /\ forall i, i < n -> fk_get s i = Ok (ia_last v (rev ops) i).
Proof. exact (@fk_history_get). Qed.
Print Assumptions C34_folklore.
Theorem C34_folklore_from_range : forall (A : Type) (zero : A) l,
  exists s, fk_of_list zero l = Ok s /\ fk_size s = length l /\ forall i, i < length l -> fk_get s i = Ok (nth i l zero).
Proof. exact (@fk_of_list_get). Qed.
Print Assumptions C34_folklore_from_range.
Example C34_ex : (do s <- fk_run 0%N 5 9%N [IASet 3 1; IASet 0 2; IAFill 7; IASet 3 4; IASet 1 5]%N; mapM (fk_get s) (seq 0 5)) = Ok [7; 5; 7; 4; 7]%N.
Proof. vm_compute; reflexivity. Qed.

(** ** C35: [mem] is the indeterminate memory the array starts from; w is 8 * sizeof(T) *)
Theorem C35_unsigned : forall w size mem v ops, in_place_case w size -> length mem = kActualSize size -> Forall (ia_op_in size) ops ->
  exists s, ia_run w size mem v ops = Ok s /\ forall i, i < size -> ia_get (next_unsigned w) size s i = Ok (ia_last v (rev ops) i).
Proof. exact ia_unsigned. Qed.
Print Assumptions C35_unsigned.
Theorem C35_signed : forall w size mem v ops, (1 < w)%N -> in_place_case (w - 1) size -> length mem = kActualSize size -> Forall (ia_op_in size) ops ->
  exists s, ia_run w size mem v ops = Ok s /\ forall i, i < size -> ia_get (next_signed w) size s i = Ok (ia_last v (rev ops) i).
Proof. exact ia_signed. Qed.
Print Assumptions C35_signed.
(** Memory and stored values that look like links *)
Example C35_ex : in_place_case 8 7 /\ in_place_case 7 7 /\
  (do s <- ia_run 8 7 [6; 0; 4; 1; 2; 3; 0; 9]%N 4%N [IASet 6 0; IASet 4 0; IASet 0 2; IASet 2 6; IASet 3 2; IASet 5 4]%N; mapM (ia_get (next_unsigned 8) 7 s) (seq 0 7))
  = Ok [2; 4; 6; 2; 0; 4; 0]%N.
Proof. split; [|split]; [split; vm_compute; congruence..|vm_compute; reflexivity]. Qed.

(** ** C36: for float and double the links are read back as numbers near zero *)
Theorem C36_refuted_float : exists size mem v ops i, in_place_case 24 size /\ length mem = kActualSize size /\ Forall (ia_op_in size) ops /\ i < size /\
  exists s, ia_run 32 size mem v ops = Ok s /\ ia_get next_float size s i <> Ok (ia_last v (rev ops) i) /\ ia_get next_float size s i <> UB.
Proof.
  exists 8, [0; 0; 0; 0; 0; 0; 0; 0]%N, 0%N, [IASet 6 1065353216; IASet 4 1073741824]%N, 4. (* a[6] = 1.0f; a[4] = 2.0f *)
  split; [split; vm_compute; congruence|]. split; [reflexivity|]. split; [repeat constructor|]. split; [lia|].
  eexists. split; [vm_compute; reflexivity|]. split; vm_compute; discriminate.
Qed.
Print Assumptions C36_refuted_float.
Theorem C36_refuted_double : exists size mem v ops i, in_place_case 53 size /\ length mem = kActualSize size /\ Forall (ia_op_in size) ops /\ i < size /\
  exists s, ia_run 64 size mem v ops = Ok s /\ ia_get next_double size s i <> Ok (ia_last v (rev ops) i) /\ ia_get next_double size s i <> UB.
Proof.
  exists 8, [0; 0; 0; 0; 0; 0; 0; 0]%N, 0%N, [IASet 6 4607182418800017408; IASet 4 4611686018427387904]%N, 4. (* a[6] = 1.0; a[4] = 2.0 *)
  split; [split; vm_compute; congruence|]. split; [reflexivity|]. split; [repeat constructor|]. split; [lia|].
  eexists. split; [vm_compute; reflexivity|]. split; vm_compute; discriminate.
Qed.
Print Assumptions C36_refuted_double.
(** Elements with an odd index are right for every element type. Missing (false): even indices. *)
Theorem C36_odd_partial : forall w digits next size mem v ops, (digits <= w)%N -> in_place_case digits size -> length mem = kActualSize size -> Forall (ia_op_in size) ops ->
  exists s, ia_run w size mem v ops = Ok s /\ forall i, i < size -> i mod 2 = 1 -> ia_get next size s i = Ok (ia_last v (rev ops) i).
Proof. exact ia_odd. Qed.
Print Assumptions C36_odd_partial.
Example C36_odd_ex : in_place_case 24 8 /\ (do s <- ia_run 32 8 [0; 0; 0; 0; 0; 0; 0; 0]%N 0%N [IASet 7 1065353216; IASet 5 1073741824]%N; mapM (ia_get next_float 8 s) [1; 3; 5; 7])
  = Ok [0; 0; 1073741824; 1065353216]%N.
Proof. split; [split; vm_compute; congruence|vm_compute; reflexivity]. Qed.
