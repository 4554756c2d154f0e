(** The space of a vector stored in levels, said with the values and the widths alone. *)
From Coq Require Import List NArith Arith.
From Verif Require Import Spec SplitSpec.
Import ListNotations.
Local Open Scope nat_scope.

(** 64-bit words for n bits *)
Definition words_for (n : N) : N := ((n + 63) / 64)%N.
(** the bits themselves and two words for every 512 of them, begun or about to begin *)
Definition index_words (n : N) : N := (words_for n + 2 * (n / 512 + 1))%N.
(** the words of levels of widths ws from bit t on; the last level has no index *)
Fixpoint level_words (l : list N) (t : nat) (ws : list nat) : N :=
  match ws with
  | [] => 0%N
  | w :: ws' => (words_for (wider l t * N.of_nat w) + match ws' with [] => 0 | _ :: _ => index_words (wider l t) + level_words l (t + w) ws' end)%N
  end.
