(** Independent specifications, second part (containers built on the vectors). *)
From Coq Require Import List NArith ZArith Arith Bool.
From Verif Require Import Base Spec.
Import ListNotations.
Local Open Scope nat_scope.

(** The number of elements that agree with [c] on all but the low [k] bits *)
Definition sharing (k : nat) (c : N) (l : list N) : nat := count_if (fun x => (x / 2 ^ N.of_nat k =? c / 2 ^ N.of_nat k)%N) l.

(** Histories of a packed vector with [e] elements per word, most recent operation first:
    its number of elements, and the value element [i] must have. *)
Inductive mb_op :=
| MBSet (i : nat) (v : N)   (* set(i, v) *)
| MBResize (i : nat).       (* resize(i): make room for exactly the words up to that of element i *)
Fixpoint mb_capacity (e : nat) (rev_ops : list mb_op) : nat :=
  match rev_ops with
  | [] => 0
  | MBSet j _ :: r => Nat.max (mb_capacity e r) (e * (j / e + 1))
  | MBResize j :: _ => e * (j / e + 1)
  end.
Fixpoint mb_last (e : nat) (rev_ops : list mb_op) (i : nat) : N :=
  match rev_ops with
  | [] => 0%N
  | MBSet j v :: r => if i =? j then v else mb_last e r i
  | MBResize j :: r => if e * (j / e + 1) <=? i then 0%N else mb_last e r i
  end.
Definition mb_op_fits (u : nat) (o : mb_op) : Prop := match o with MBSet _ v => (v < 2 ^ N.of_nat u)%N | _ => True end.
