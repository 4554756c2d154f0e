(** Model of the assignment of a list to a block of MultipleVector.hpp. A layout set a second time, and loading into an object that
    already has a layout, are [mv_set_element_sizes] and [mv_load] of MultipleModel.v applied to any object. *)
From Coq Require Import List NArith Arith.
From Verif Require Import Base MultipleModel.
Import ListNotations.
Local Open Scope nat_scope.

(** MultipleVector.hpp:64-67 with 261-263: the stores of block(i) = {vals...}, made before the end of the body is reached *)
Definition mv_assign_stores (m : multiple) (i : nat) (vals : list N) : res multiple := do p <- mv_block m i; mv_set_all p m 0 vals.
(** MultipleVector.hpp:64-68: the operator returns a BlockReference, and its body ends without a return statement: flowing off the
    end of it is undefined *)
Definition mv_assign (m : multiple) (i : nat) (vals : list N) : res multiple := do _ <- mv_assign_stores m i vals; UB.
