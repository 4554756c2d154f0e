(** Property C132 (BitReference.hpp, BitsReference.hpp). *)
From Coq Require Import List NArith ZArith Arith Bool Lia.
From Verif Require Import Base Spec29 FitVectorModel BitVectorModel RefModel RefProof.
Import ListNotations.
Local Open Scope nat_scope.

(** FitVectors of any widths from 1 to 63; operator& of their references does not compile *)
Theorem C132_fitvector : forall os vs st st' ns,
  Forall (fun v => 1 <= fv_width v <= 63 /\ length (fv_words v) = fv_word_size (fv_size v) (fv_width v) /\ Forall (fun y => (y < 2 ^ 64)%N) (fv_words v)) vs ->
  (forall a i x, st (a, i) = Some x <-> exists v, nth_error vs a = Some v /\ i < fv_size v /\ fv_get v i = Ok x) ->
  (forall o, In o os -> ~ match o with RAddr _ => True | _ => False end) ->
  refs_run (fun a x => (x <? 2 ^ N.of_nat (match nth_error vs a with Some v => fv_width v | None => 0 end))%N) (st, []) os = Some (st', ns) ->
  exists vs' rs, fit_refs (vs, []) os = Ok (vs', rs) /\
    map (fun v => (fv_width v, fv_size v)) vs' = map (fun v => (fv_width v, fv_size v)) vs /\
    (forall a i x, st' (a, i) = Some x <-> exists v, nth_error vs' a = Some v /\ i < fv_size v /\ fv_get v i = Ok x) /\
    length rs = length ns /\
    forall k n, nth_error ns k = Some n -> exists r x, nth_error rs k = Some r /\ st' n = Some x /\ pr_read vs' r = Ok x.
Proof. intros os vs st st' ns A B C D. exact (fit_refs_run os vs st (st', ns) A B C D). Qed.
Print Assumptions C132_fitvector.
(** element 9 of 7 bits spans two words; an element of a vector of 13 bits is assigned to it; then the swap loses 90 *)
Example C132_fitvector_ex :
  (do a <- fv_filled 7 12 90; do b <- fv_filled 13 5 100;
   do s <- fit_refs ([a; b], []) [RTake 0 9; RTake 1 3; RTake 0 2; RCopy 0 1; RSwap 2 0; RAlias 1; RWrite 3 8000%N];
   do x <- fv_get (nth 0 (fst s) (fv_make 0)) 9; do y <- fv_get (nth 0 (fst s) (fv_make 0)) 2; do z <- fv_get (nth 1 (fst s) (fv_make 0)) 3;
   do t <- fv_get (nth 0 (fst s) (fv_make 0)) 8; Ok [x; y; z; t]) = Ok [100; 100; 8000; 90]%N /\
  exists st ns, refs_run (fun a x => (x <? 2 ^ N.of_nat (nth a [7; 13] 0)%nat)%N)
    (fun n => if (snd n <? nth (fst n) [12; 5] 0) then Some (nth (fst n) [90; 100]%N 0%N) else None, [])
    [RTake 0 9; RTake 1 3; RTake 0 2; RCopy 0 1; RSwap 2 0; RAlias 1; RWrite 3 8000%N] = Some (st, ns) /\
    ns = [(0, 9); (1, 3); (0, 2); (1, 3)] /\ st (0, 9) = Some 100%N /\ st (0, 2) = Some 100%N /\ st (1, 3) = Some 8000%N /\ st (0, 8) = Some 90%N.
Proof. split; [vm_compute; reflexivity|]. do 2 eexists. split; [reflexivity|]. repeat split. Qed.

Theorem C132_bitvector : forall os vs st st' ns,
  Forall (fun v => length (bv_words v) = get_word_size (bv_size v) /\ Forall (fun y => (y < 2 ^ 64)%N) (bv_words v)) vs ->
  (forall a i x, st (a, i) = Some x <-> exists v, nth_error vs a = Some v /\ i < bv_size v /\ bv_get v i = Ok x) ->
  refs_run (fun _ _ => true) (st, []) os = Some (st', ns) ->
  exists vs' rs, bit_refs (vs, []) os = Ok (vs', rs) /\ map bv_size vs' = map bv_size vs /\
    (forall a i x, st' (a, i) = Some x <-> exists v, nth_error vs' a = Some v /\ i < bv_size v /\ bv_get v i = Ok x) /\
    length rs = length ns /\
    forall k n, nth_error ns k = Some n -> exists r x, nth_error rs k = Some r /\ st' n = Some x /\ qr_read vs' r = Ok x.
Proof. intros os vs st st' ns A B C. exact (bit_refs_run os vs st (st', ns) A B C). Qed.
Print Assumptions C132_bitvector.
Example C132_bitvector_ex :
  (do s <- bit_refs ([bv_sized 70; bv_sized 3], []) [RTake 0 65; RWrite 0 true; RTake 1 2; RCopy 1 0; RAddr 0; RWrite 2 false; RSwap 1 2];
   do x <- bv_get (nth 0 (fst s) bv_default) 65; do y <- bv_get (nth 1 (fst s) bv_default) 2; Ok [x; y]) = Ok [false; false] /\
  exists st ns, refs_run (fun _ _ => true) (fun n => if (snd n <? nth (fst n) [70; 3] 0) then Some false else None, [])
    [RTake 0 65; RWrite 0 true; RTake 1 2; RCopy 1 0; RAddr 0; RWrite 2 false; RSwap 1 2] = Some (st, ns) /\
    ns = [(0, 65); (1, 2); (0, 65)] /\ st (0, 65) = Some false /\ st (1, 2) = Some false.
Proof. split; [vm_compute; reflexivity|]. do 2 eexists. split; [reflexivity|]. repeat split. Qed.

(** std::swap of two references does not exchange the elements: afterwards both hold the value of the second. *)
Theorem C132_swap : forall a b x y i j, bv_get a i = Ok x -> bv_get b j = Ok y -> i < bv_size a -> j < bv_size b ->
  Forall (fun v => length (bv_words v) = get_word_size (bv_size v) /\ Forall (fun y => (y < 2 ^ 64)%N) (bv_words v)) [a; b] ->
  exists a' b' rs, bit_refs ([a; b], []) [RTake 0 i; RTake 1 j; RSwap 0 1] = Ok ([a'; b'], rs) /\ bv_get a' i = Ok y /\ bv_get b' j = Ok y.
Proof. exact bit_swap_loses. Qed.
Print Assumptions C132_swap.
Example C132_swap_ex : (do a <- bv_filled 5 true; bv_get a 4) = Ok true /\ bv_get (bv_sized 5) 3 = Ok false.
Proof. split; vm_compute; reflexivity. Qed.
