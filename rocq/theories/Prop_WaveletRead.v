(** C123: WaveletTree::Read into any tree that was built before. *)
From Coq Require Import List NArith ZArith Arith Bool.
From Verif Require Import Base Spec WaveletModel StreamModel WaveletRead.
Import ListNotations.
Local Open Scope nat_scope.

(** as many bits per symbol: everything is restored *)
Theorem C123_same : forall l l' t target, wt_make l = Ok t -> wt_make l' = Ok target -> (N.of_nat (length l) < 2 ^ 63)%N ->
  wt_height target = wt_height t -> forall rest, wt_read target (wt_write t ++ rest) = Ok (t, rest).
Proof. exact read_same. Qed.
Print Assumptions C123_same.
(** fewer: a part of the image stays in the stream, and only size() can still be asked *)
Theorem C123_lower : forall l l' t target, wt_make l = Ok t -> wt_make l' = Ok target -> (N.of_nat (length l) < 2 ^ 63)%N ->
  wt_height target < wt_height t -> exists front back u, wt_write t = front ++ back /\ back <> [] /\
  (forall rest, wt_read target (wt_write t ++ rest) = Ok (u, back ++ rest)) /\ wt_size u = Ok (length l) /\
  forall i, wt_get u i = UB /\ wt_rank u i = UB /\ wt_access_and_rank u i = UB /\ forall c, wt_rank_c u c i = UB.
Proof. exact read_lower. Qed.
Print Assumptions C123_lower.
(** more: the reader wants at least 24 bytes per node too many of whatever follows; if it gets them the queries are those of the tree that was written *)
Theorem C123_higher : forall l l' t target, wt_make l = Ok t -> wt_make l' = Ok target -> (N.of_nat (length l) < 2 ^ 63)%N ->
  wt_height t < wt_height target -> wt_read target (wt_write t) = UB /\
  forall rest u s, wt_read target (wt_write t ++ rest) = Ok (u, s) -> (exists taken, rest = taken ++ s /\ 24 * (2 ^ wt_height target - 2 ^ wt_height t) <= length taken) /\ wt_size u = Ok (length l) /\
    forall i, wt_get u i = wt_get t i /\ wt_rank u i = wt_rank t i /\ wt_access_and_rank u i = wt_access_and_rank t i /\ forall c, wt_rank_c u c i = wt_rank_c t c i.
Proof. exact read_higher. Qed.
Print Assumptions C123_higher.
(** heights 2, 2, 1 and 3; behind the image in the last case there are 96 zero bytes (four empty nodes) and one byte more *)
Example C123_ex :
  (do t <- wt_make [3; 1; 2]; do g <- wt_make [2; 0]; Ok (wt_height t, wt_height g))%N = Ok (2, 2) /\
  (do t <- wt_make [3; 1; 2]; do g <- wt_make [1; 0]; do r <- wt_read g (wt_write t); do n <- wt_size (fst r); Ok (n, length (snd r)))%N = Ok (3, 96) /\
  (do t <- wt_make [3; 1; 2]; do g <- wt_make [5]; do r <- wt_read g (wt_write t ++ repeat 0 96 ++ [8]); do x <- wt_get (fst r) 0; Ok (x, snd r))%N = Ok (3, [8])%N.
Proof. split; [vm_compute; reflexivity|]. split; vm_compute; reflexivity. Qed.
