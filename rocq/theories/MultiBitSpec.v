(** Independent specification of MultiBitVector histories that also call build() *)
From Coq Require Import List NArith Arith.
From Verif Require Import Base Spec Spec2.
Import ListNotations.
Local Open Scope nat_scope.

Inductive mb_op_b :=
| MBDo (o : mb_op)   (* set or resize *)
| MBBuild.           (* build() *)

(** the operations that change elements *)
Fixpoint writes (ops : list mb_op_b) : list mb_op :=
  match ops with
  | [] => []
  | MBDo o :: r => o :: writes r
  | MBBuild :: r => writes r
  end.

(** the operations since (and including) the last build have left the elements alone: the history ends with build() *)
Definition just_built (ops : list mb_op_b) : Prop := exists before, ops = before ++ [MBBuild].
