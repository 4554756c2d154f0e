(** Properties C13, C14, C15 (BitVector part) and C22 (BitVector.hpp, BitReference.hpp). *)
From Coq Require Import List NArith ZArith Lia Bool Arith.
From Verif Require Import Base Spec BitVectorModel BitVectorProof BitVectorProof2.
Import ListNotations.
Local Open Scope nat_scope.

(** C13 *)
Theorem C13_bitvector_is_sequence : forall s l0 ops l, bv_start s l0 -> bits_run l0 ops = Some l ->
  exists v, (do v <- s; bv_run v ops) = Ok v /\ bv_size v = length l /\
    (forall i b, nth_error l i = Some b -> bv_get v i = Ok b) /\ bv_to_list v = Ok l.
Proof. exact bv_history. Qed.
Print Assumptions C13_bitvector_is_sequence.
(** a history with a shrink that leaves stale ones, then growth over them *)
Example C13_ex : bits_run (repeat true 70) [BVResize 3 false; BVResize 68 false; BVPush true; BVWrite 1 false; BVFill 60 66 true]
    = Some ([true; false; true] ++ repeat false 57 ++ repeat true 6 ++ [false; false; true]) /\
  rmap bv_size (do v <- bv_filled 70 true; bv_run v [BVResize 3 false; BVResize 68 false; BVPush true]) = Ok 69.
Proof. split; vm_compute; reflexivity. Qed.

(** C14 *)
Theorem C14_displacement : forall i d, (- 2 ^ 63 + 63 <= d < 2 ^ 63)%Z -> (Z.of_nat i < 2 ^ 63)%Z -> (0 <= Z.of_nat i + d)%Z ->
  iter_deref (iter_plus_eq (iter_plus (make_iter 0) (Z.of_nat i)) d) = make_ref (Z.to_nat (Z.of_nat i + d)).
Proof. exact iter_displacement. Qed.
Print Assumptions C14_displacement.
Example C14_displacement_ex : iter_deref (iter_plus_eq (iter_plus (make_iter 0) 130) (-67)) = make_ref 63 /\
  make_ref 63 = Ok (Ref 0 (2 ^ 63)).
Proof. split; vm_compute; reflexivity. Qed.

Theorem C14_steps : forall i, iter_inc (make_iter i) = make_iter (i + 1) /\ iter_dec (make_iter (i + 1)) = make_iter i.
Proof. exact iter_steps. Qed.
Print Assumptions C14_steps.
Example C14_steps_ex : iter_inc (make_iter 63) = make_iter 64 /\ make_iter 64 = It 1 0.
Proof. split; reflexivity. Qed.

Theorem C14_comparisons : forall i j, (Z.of_nat i < 2 ^ 63)%Z -> (Z.of_nat j < 2 ^ 63)%Z ->
  iter_diff (make_iter i) (make_iter j) = (Z.of_nat i - Z.of_nat j)%Z /\
  iter_eqb (make_iter i) (make_iter j) = (i =? j) /\ iter_ltb (make_iter i) (make_iter j) = (i <? j) /\
  iter_leb (make_iter i) (make_iter j) = (i <=? j).
Proof. exact iter_compare. Qed.
Print Assumptions C14_comparisons.
Example C14_comparisons_ex : iter_diff (make_iter 5) (make_iter 200) = (-195)%Z.
Proof. reflexivity. Qed.

Theorem C14_address_of_reference : forall i r, make_ref i = Ok r -> ref_addr r = make_iter i.
Proof. exact ref_addr_make. Qed.
Print Assumptions C14_address_of_reference.
Example C14_address_ex : rmap ref_addr (make_ref 100) = Ok (It 1 36).
Proof. vm_compute. reflexivity. Qed.

(** C15 *)
Theorem C15_bitvector_at : forall s l0 ops l, bv_start s l0 -> bits_run l0 ops = Some l ->
  exists v, (do v <- s; bv_run v ops) = Ok v /\
    forall i, bv_at v i = match nth_error l i with Some b => Ok b | None => Throw end.
Proof. exact bv_at_history. Qed.
Print Assumptions C15_bitvector_at.
Example C15_bitvector_at_ex : (do v <- bv_filled 3 true; bv_at v 2) = Ok true /\ (do v <- bv_filled 3 true; bv_at v 3) = Throw.
Proof. split; vm_compute; reflexivity. Qed.

(** C22 *)
Theorem C22_fill_range : forall ws b e bit, Forall (fun w => (w < 2 ^ 64)%N) ws -> e <= 64 * length ws ->
  exists ws', fill ws (make_iter b) (make_iter e) bit = Ok ws' /\ length ws' = length ws /\
    Forall (fun w => (w < 2 ^ 64)%N) ws' /\
    forall j, N.testbit (nth (j / 64) ws' 0%N) (N.of_nat (j mod 64)) =
      if (b <=? j) && (j <? e) then bit else N.testbit (nth (j / 64) ws 0%N) (N.of_nat (j mod 64)).
Proof. exact fill_range. Qed.
Print Assumptions C22_fill_range.
Example C22_fill_ex : fill [0; 0; 0]%N (make_iter 60) (make_iter 130) true = Ok [0xF000000000000000; 0xFFFFFFFFFFFFFFFF; 3]%N.
Proof. vm_compute. reflexivity. Qed.

(** C69 *)
Theorem C69_front_back : forall s l0 ops l, bv_start s l0 -> bits_run l0 ops = Some l ->
  exists v, (do v <- s; bv_run v ops) = Ok v /\ forall b, (hd_error l = Some b -> bv_front v = Ok b) /\ (hd_error (rev l) = Some b -> bv_back v = Ok b).
Proof. exact bv_front_back. Qed.
Print Assumptions C69_front_back.
Example C69_ex : bits_run (repeat true 64) [BVWrite 0 false; BVPush false] = Some (false :: repeat true 63 ++ [false]) /\
  (do v <- (do v <- bv_filled 64 true; bv_run v [BVWrite 0 false; BVPush false]); bv_back v) = Ok false /\
  (do v <- (do v <- bv_filled 64 true; bv_run v [BVWrite 0 false]); bv_back v) = Ok true /\
  (do v <- (do v <- bv_filled 64 true; bv_run v [BVWrite 0 false]); bv_front v) = Ok false.
Proof. repeat split; vm_compute; reflexivity. Qed.
