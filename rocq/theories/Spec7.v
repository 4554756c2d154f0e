(** Specifications, part 7: a vector of numbers as a tape of bits. *)
From Coq Require Import List NArith Arith Bool.
From Verif Require Import Spec.
Import ListNotations.
Local Open Scope nat_scope.

(** The end of the last 64-bit word that the first [p] bits touch. *)
Definition word_end (p : nat) : nat := 64 * ((p + 63) / 64).

(** Keep the words that [p] bits need and clear everything behind them. *)
Definition tape_cut (p : nat) (T : nat -> bool) (q : nat) : bool := if q <? word_end p then T q else false.

(** Store the 64-bit number [x] in the [w] bits from position [p] on: those bits become the low bits of [x];
    its further bits are or-ed into what follows, up to the end of the last word of the field. *)
Definition tape_store (w p : nat) (x : N) (T : nat -> bool) (q : nat) : bool :=
  if q <? p then T q
  else if q <? p + w then N.testbit x (N.of_nat (q - p))
  else if q <? word_end (p + w) then T q || N.testbit x (N.of_nat (q - p))
  else T q.

(** Number of elements and tape; [None]: outside the contract. *)
Definition tape_fill (w a n : nat) (x : N) (T : nat -> bool) : nat -> bool :=
  fold_left (fun T i => tape_store w (i * w) x T) (seq a (n - a)) T.
Definition tape_step (w : nat) (st : nat * (nat -> bool)) (o : fv_op) : option (nat * (nat -> bool)) :=
  let '(n, T) := st in
  match o with
  | FVResize m => Some (m, tape_cut (m * w) T)
  | FVResizeV m x => Some (m, tape_fill w n m x (tape_cut (m * w) T))
  | FVAssign m x => Some (m, tape_fill w 0 m x (tape_cut (m * w) T))
  | FVPush x => Some (n + 1, tape_store w (n * w) x (tape_cut ((n + 1) * w) T))
  | FVWrite i x => if i <? n then Some (n, tape_store w (i * w) x T) else None
  end.
Fixpoint tape_run (w : nat) (st : nat * (nat -> bool)) (ops : list fv_op) : option (nat * (nat -> bool)) :=
  match ops with
  | [] => Some st
  | o :: ops => match tape_step w st o with Some st => tape_run w st ops | None => None end
  end.

(** The number in the [w] bits of [T] from position [p] on. *)
Fixpoint tape_num (T : nat -> bool) (p w : nat) : N :=
  match w with O => 0%N | S w => ((if T p then 1 else 0) + 2 * tape_num T (S p) w)%N end.

(** Every value an operation stores is a 64-bit word. *)
Definition op_word (o : fv_op) : Prop := op_fits 64 o.
