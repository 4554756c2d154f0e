(** C43, C44, C63: CDRWArray and CDRWVector. *)
From Coq Require Import List NArith ZArith Arith Bool.
From Verif Require Import Base Spec4 CDRWModel CDRWProof.
Import ListNotations.
Local Open Scope nat_scope.

(** missing from the full claim: writes that change the bit length of a non-zero element, and values from 2^63 *)
Theorem C43_width_kept_partial : forall n ws, 1 <= n -> (N.of_nat n <= 2 ^ 50)%N ->
  Forall (fun w => fst w < n /\ (snd w < 2 ^ 63)%N) ws -> width_kept ws -> (N.of_nat (length ws) < 2 ^ 50)%N ->
  exists a, cdrw_run n ws = Ok a /\ forall i, i < n -> cdrw_get a i = Ok (last_value ws i).
Proof. exact (fun n ws a b => writes_correct n a b ws). Qed.
Print Assumptions C43_width_kept_partial.
Example C43_example : let ws := [(1, 5%N); (0, 1%N); (1, 7%N)] in
  (Forall (fun w => fst w < 3 /\ (snd w < 2 ^ 63)%N) ws /\ width_kept ws) /\ (do a <- cdrw_run 3 ws; mapM (cdrw_get a) [0; 1; 2]) = Ok (map (last_value ws) [0; 1; 2]).
Proof.
  split; [|vm_compute; reflexivity]. split; [repeat constructor|]. intros before i v after E.
  destruct before as [|? [|? [|? [|]]]]; try discriminate E; injection E; intros; subst; vm_compute; auto.
Qed.
(** element 6 is lost after writes to the elements 3, 0 and 1 *)
Theorem C43_interference_refuted : exists n ws i a, Forall (fun w => fst w < n /\ (snd w < 4)%N) ws /\ i < n /\
  cdrw_run n ws = Ok a /\ cdrw_get a i <> Ok (last_value ws i).
Proof.
  exists 8, [(6, 2%N); (3, 1%N); (3, 0%N); (0, 3%N); (1, 1%N); (1, 0%N)], 6. eexists. split; [repeat constructor|]. split; [repeat constructor|]. split; [vm_compute; reflexivity|]. vm_compute. discriminate.
Qed.
Print Assumptions C43_interference_refuted.
Theorem C43_top_value_refuted : exists v, (v < 2 ^ 64)%N /\ cdrw_run 1 [(0, v)] = UB.
Proof. exists (2 ^ 63)%N. split; vm_compute; reflexivity. Qed.
Print Assumptions C43_top_value_refuted.

(** missing from the full claim: an empty start, values from 2^63, writes that change the bit length of a non-zero element, elements removed (see the next theorem) *)
Theorem C44_growing_partial : forall n ops l, 1 <= n -> (N.of_nat n <= 2 ^ 48)%N -> (N.of_nat (length ops) < 2 ^ 48)%N -> steps grow_step (repeat 0%N n) ops = Some l ->
  exists v, cdv_run n ops = Ok v /\ dv_size v = length l /\ forall i, i < length l -> cdv_get v i = Ok (nth i l 0%N).
Proof. exact grow_correct. Qed.
Print Assumptions C44_growing_partial.
Example C44_growing_example : let ops := [DPush 5%N; DSet 0 2%N; DReserve 3; DPush 9%N; DShrink; DResize 4; DSet 1 7%N] in
  steps grow_step [0%N] ops = Some [2; 7; 9; 0]%N /\ (do v <- cdv_run 1 ops; do l <- mapM (cdv_get v) [0; 1; 2; 3]; Ok (dv_size v, l)) = Ok (4, [2; 7; 9; 0]%N).
Proof. split; vm_compute; reflexivity. Qed.
(** all values of one bit length; elements may be removed *)
Theorem C44_one_width_partial : forall w n ops l, (w <= 63)%N -> 1 <= n -> (N.of_nat n <= 2 ^ 48)%N -> (N.of_nat (length ops) < 2 ^ 48)%N -> steps (same_step w) (repeat 0%N n) ops = Some l ->
  exists v, cdv_run n ops = Ok v /\ dv_size v = length l /\ forall i, i < length l -> cdv_get v i = Ok (nth i l 0%N).
Proof. exact same_correct. Qed.
Print Assumptions C44_one_width_partial.
Example C44_one_width_example : let ops := [DPop; DPush 5%N; DPush 6%N; DPop; DPush 7%N; DShrink; DSet 0 4%N] in
  steps (same_step 3) [0%N] ops = Some [4; 7]%N /\ (do v <- cdv_run 1 ops; do l <- mapM (cdv_get v) [0; 1]; Ok (dv_size v, l)) = Ok (2, [4; 7]%N).
Proof. split; vm_compute; reflexivity. Qed.
Theorem C44_push_on_empty_refuted : exists x, (x < 2 ^ 64)%N /\ cdv_run 0 [DPush x] = UB.
Proof. exists 1%N. split; vm_compute; reflexivity. Qed.
Print Assumptions C44_push_on_empty_refuted.
(** shortening and lengthening again brings the old value back *)
Theorem C44_stale_value_refuted : exists n x v, cdv_run n [DSet 1 x; DResize 1; DResize 2] = Ok v /\ dv_size v = 2 /\ cdv_get v 1 = Ok x /\ x <> 0%N.
Proof. exists 2, 5%N. eexists. split; [vm_compute; reflexivity|]. split; [reflexivity|]. split; [vm_compute; reflexivity|discriminate]. Qed.
Print Assumptions C44_stale_value_refuted.

Theorem C63_range : forall l, (N.of_nat (length l) < 2 ^ 50)%N -> Forall (fun x => (x < 2 ^ 63)%N) l ->
  exists a, cdrw_of_list l = Ok a /\ cd_size a = length l /\ forall i, i < length l -> cdrw_get a i = Ok (nth i l 0%N).
Proof. exact range_correct. Qed.
Print Assumptions C63_range.
Example C63_example : Forall (fun x => (x < 2 ^ 63)%N) [5; 0; 6; 1]%N /\ (do a <- cdrw_of_list [5; 0; 6; 1]%N; mapM (cdrw_get a) [0; 1; 2; 3]) = Ok [5; 0; 6; 1]%N.
Proof. split; [repeat constructor|vm_compute; reflexivity]. Qed.
