(** Specification vocabulary for C122: the element an operation on a MultiBitVector names *)
From Coq Require Import List NArith.
From Verif Require Import Spec2.
Definition mb_index (o : mb_op) : nat := match o with MBSet i _ => i | MBResize i => i end.
