(** What is left of a history of an initializable array at an element that is never set (C155). *)
From Coq Require Import List.
From Verif Require Import Spec3.
Import ListNotations.

(** the value of the last fill *)
Definition last_fill {A} (first : A) (ops : list (ia_op A)) : A := fold_left (fun x o => match o with IAFill v => v | IASet _ _ => x end) ops first.
