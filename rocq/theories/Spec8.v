(** Independent specifications, eighth part: maps with erasures (C86). *)
From Coq Require Import List NArith ZArith Arith Bool.
From Verif Require Spec4.
Import ListNotations.
Local Open Scope nat_scope.

Inductive tab_op := TabSet (k v : N) | TabReserve (n : nat) | TabErase (k : N).
(** the value last given to [k], erasures ignored; the most recent operation comes last *)
Definition last_tab (k : N) (ops : list tab_op) : option N :=
  fold_left (fun r o => match o with TabSet k' v => if (k' =? k)%N then Some v else r | _ => r end) ops None.
(** the number of erasures *)
Definition erases (ops : list tab_op) : nat := length (filter (fun o => match o with TabErase _ => true | _ => false end) ops).
(** keys of [kb] bits, values of [vb] bits *)
Definition tab_op_in (kb vb : nat) (o : tab_op) : Prop :=
  match o with
  | TabSet k v => (k < 2 ^ N.of_nat kb)%N /\ (v < 2 ^ N.of_nat vb)%N
  | TabReserve n => (N.of_nat n < 2 ^ 50)%N
  | TabErase k => (k < 2 ^ N.of_nat kb)%N
  end.

(** ** Arrays of integers written by index (C88): the writes that change the bit length of a non-zero element *)
Definition width_changes (ws : list (nat * N)) : nat :=
  length (filter (fun p => let w := nth p ws (0, 0%N) in let old := Spec4.last_value (firstn p ws) (fst w) in
                           negb (old =? 0)%N && negb (N.size old =? N.size (snd w))%N) (seq 0 (length ws))).
