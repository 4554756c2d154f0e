(** Property C151: the mask of a FitVector and the width 64 (FitVector.hpp, BitsReference.hpp, bit_util.hpp:33-36). *)
From Coq Require Import List NArith Arith Bool Lia.
From Verif Require Import Base Spec WideSpec BitUtilModel SmallDebugModel FitVectorModel FitMaskModel FitMask.
Import ListNotations.
Local Open Scope nat_scope.

(** Below width 64 an object that keeps its mask does what FitVectorModel.v says, in every history. *)
Theorem C151_narrow : forall w ops, w < 64 -> exists v0, mk_new w = Ok v0 /\
  match fv_run (fv_make w) ops with
  | Ok f => exists v, mk_run v0 ops = Ok v /\ mk_size v = fv_size f /\ forall i, mk_get v i = fv_get f i
  | UB => mk_run v0 ops = UB | Throw => mk_run v0 ops = Throw | Fuel => mk_run v0 ops = Fuel
  end.
Proof. exact narrow_same. Qed.
Example C151_narrow_ex : (do v <- mk_new 7; do v <- mk_run v [FVPush 5; FVResizeV 12 100; FVWrite 9 3]%N; mapM (mk_get v) [0; 8; 9; 11]) = Ok [5; 100; 3; 100]%N /\
  (do v <- mk_new 7; mk_run v [FVWrite 0 3]%N) = UB.
Proof. split; vm_compute; reflexivity. Qed.
(** The constructor is undefined from width 64 on; the assertion lets the width 64 pass. *)
Theorem C151_construct : forall w, (w < 64 -> exists v, mk_new w = Ok v /\ mk_new_d w = Ok v) /\ (64 <= w -> mk_new w = UB) /\ mk_new_d 64 = UB /\ (64 < w -> mk_new_d w = Throw).
Proof. exact new_cases. Qed.
Example C151_construct_ex : (exists v, mk_new 63 = Ok v) /\ mk_new 64 = UB /\ mk_new_d 65 = Throw.
Proof. split; [eexists; vm_compute; reflexivity|]. split; vm_compute; reflexivity. Qed.

(** Whatever word the undefined shift leaves in the mask: a store keeps the old bits outside the mask, a read drops them. *)
Theorem C151_any_mask : forall M ops l, (M < 2 ^ 64)%N -> Forall (op_fits 64) ops -> wide_run M [] ops = Some l ->
  exists v, mk_run (mk_given 64 M) ops = Ok v /\ mk_size v = length l /\ forall i, i < length l -> mk_get v i = Ok (N.land (nth i l 0%N) M).
Proof. exact any_mask. Qed.
Example C151_any_mask_ex : wide_run 255 [] [FVPush 4660; FVPush 7; FVWrite 0 257; FVResize 3]%N = Some [4865; 7; 0]%N /\
  (do v <- mk_run (mk_given 64 255) [FVPush 4660; FVPush 7; FVWrite 0 257; FVResize 3]%N; mapM (mk_get v) [0; 1; 2]) = Ok [1; 7; 0]%N.
Proof. split; vm_compute; reflexivity. Qed.
(** With all bits in the mask it is a vector of 64-bit values ... *)
Theorem C151_right_mask : forall ops l g, Forall (op_fits 64) ops -> nums_run ([], true) ops = Some (l, g) ->
  exists v, mk_run (mk_given 64 (2 ^ 64 - 1)) ops = Ok v /\ mk_size v = length l /\ forall i, i < length l -> mk_get v i = Ok (nth i l 0%N).
Proof. exact right_mask. Qed.
Example C151_right_mask_ex : nums_run ([], true) [FVPush (2 ^ 64 - 1); FVAssign 3 9; FVResize 1; FVResize 2; FVPush (2 ^ 63)]%N = Some ([9; 0; 2 ^ 63]%N, false) /\
  (do v <- mk_run (mk_given 64 (2 ^ 64 - 1)) [FVPush (2 ^ 64 - 1); FVAssign 3 9; FVResize 1; FVResize 2; FVPush (2 ^ 63)]%N; mapM (mk_get v) [0; 1; 2]) = Ok [9; 0; 2 ^ 63]%N.
Proof. split; vm_compute; reflexivity. Qed.
(** ... and with no other mask. *)
Theorem C151_only_right_mask : forall M, (M < 2 ^ 64)%N ->
  (forall x, (x < 2 ^ 64)%N -> exists v, mk_run (mk_given 64 M) [FVPush x] = Ok v /\ mk_get v 0 = Ok x) -> M = (2 ^ 64 - 1)%N.
Proof. exact only_right_mask. Qed.
Example C151_only_right_mask_ex : (do v <- mk_run (mk_given 64 (2 ^ 63)) [FVPush (2 ^ 63 + 1)]%N; mk_get v 0) = Ok (2 ^ 63)%N.
Proof. vm_compute. reflexivity. Qed.
(** A machine that reduces the shift count modulo 64 leaves the mask 0: every element reads as 0. *)
Theorem C151_zero_mask : forall ops l, Forall (op_fits 64) ops -> wide_run 0 [] ops = Some l ->
  exists v, mk_run (mk_given 64 0) ops = Ok v /\ forall i, i < length l -> mk_get v i = Ok 0%N.
Proof. exact zero_mask. Qed.
Example C151_zero_mask_ex : wide_run 0 [] [FVPush 5; FVWrite 0 2]%N = Some [7]%N.
Proof. vm_compute. reflexivity. Qed.

Print Assumptions C151_narrow.
Print Assumptions C151_construct.
Print Assumptions C151_any_mask.
Print Assumptions C151_right_mask.
Print Assumptions C151_only_right_mask.
Print Assumptions C151_zero_mask.
