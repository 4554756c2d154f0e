(** Specification for histories of a vector of numbers in which every write must be in range. *)
From Coq Require Import List NArith Arith Bool.
From Verif Require Import Spec.
Import ListNotations.

(** The number of elements after one operation on a vector of [n] elements. *)
Definition len_after (n : nat) (o : fv_op) : nat :=
  match o with FVResize m | FVResizeV m _ | FVAssign m _ => m | FVPush _ => S n | FVWrite _ _ => n end.
(** Every write of the history is below the number of elements of that moment. *)
Fixpoint writes_inside (n : nat) (ops : list fv_op) : bool :=
  match ops with
  | [] => true
  | o :: ops => match o with FVWrite i _ => i <? n | _ => true end && writes_inside (len_after n o) ops
  end.
