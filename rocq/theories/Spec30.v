(** How often a history writes (C134). *)
From Coq Require Import List Arith.
From Verif Require Import Spec3.
Import ListNotations.

(** the number of element writes among the operations of an initializable array; the others fill the whole array *)
Definition writes {A} (ops : list (ia_op A)) : nat := length (filter (fun o => match o with IASet _ _ => true | IAFill _ => false end) ops).
