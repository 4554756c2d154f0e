(** Independent specification of moving a random-access iterator *)
From Coq Require Import List ZArith.
Import ListNotations.
Local Open Scope Z_scope.

Inductive it_move :=
| Inc | Dec                 (* ++it, --it *)
| Add (k : Z) | Sub (k : Z) (* it += k, it -= k *).

(** the distance moved *)
Fixpoint moved (ms : list it_move) : Z :=
  match ms with
  | [] => 0
  | Inc :: r => 1 + moved r
  | Dec :: r => moved r - 1
  | Add k :: r => k + moved r
  | Sub k :: r => moved r - k
  end.

(** the distance is a long long, and one that can be negated where it is subtracted *)
Definition legal_move (m : it_move) : Prop :=
  match m with
  | Add k => - 2 ^ 63 <= k < 2 ^ 63
  | Sub k => - 2 ^ 63 < k < 2 ^ 63
  | _ => True
  end.
