(** The numbers of a report on a vector stored in levels, said with the values and the widths alone. *)
From Coq Require Import List NArith ZArith Arith.
From Verif Require Import Spec SplitSpec Spec31.
Import ListNotations.
Local Open Scope nat_scope.

(** bytes of the chunks: 24 for the sizes stored with each level and its words *)
Fixpoint chunk_bytes (l : list N) (t : nat) (ws : list nat) : N :=
  match ws with [] => 0%N | w :: ws => (24 + 8 * words_for (wider l t * N.of_nat w) + chunk_bytes l (t + w) ws)%N end.
(** bytes of the bits that say which values go on, for every level but the last *)
Fixpoint flag_bytes (l : list N) (t : nat) (ws : list nat) : N :=
  match ws with [] => 0%N | w :: ws' => match ws' with [] => 0%N | _ :: _ => (24 + 8 * index_words (wider l t) + flag_bytes l (t + w) ws')%N end end.
(** the 32-bit two's complement number with the low bits of [z] *)
Definition low32 (z : Z) : Z := ((z + 2 ^ 31) mod 2 ^ 32 - 2 ^ 31)%Z.
