(** Specification for C151: a sequence of 64-bit words accessed through a mask. *)
From Coq Require Import List NArith Arith Bool.
From Verif Require Import Spec.
Import ListNotations.
Local Open Scope nat_scope.

(** storing [x] over [old] clears the bits of the mask only *)
Definition blend (M old x : N) : N := N.lor (N.ldiff old M) x.
Definition wide_step (M : N) (l : list N) (o : fv_op) : option (list N) :=
  match o with
  | FVResize n => Some (firstn n l ++ repeat 0%N (n - length l))
  | FVResizeV n x => Some (firstn n l ++ repeat x (n - length l))
  | FVAssign n x => Some (map (fun old => blend M old x) (firstn n l) ++ repeat x (n - length l))
  | FVPush x => Some (l ++ [x])
  | FVWrite i x => if i <? length l then Some (firstn i l ++ blend M (nth i l 0%N) x :: skipn (S i) l) else None
  end.
Fixpoint wide_run (M : N) (l : list N) (ops : list fv_op) : option (list N) :=
  match ops with [] => Some l | o :: ops => match wide_step M l o with Some l' => wide_run M l' ops | None => None end end.
