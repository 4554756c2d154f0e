(** The size that split_positions_optimized_for_dac minimises, said with the values alone. *)
From Coq Require Import List NArith Arith.
From Verif Require Import Spec.
Import ListNotations.
Local Open Scope nat_scope.

(** how many values need more than t bits, and exactly k bits *)
Definition wider (l : list N) (t : nat) : N := N.of_nat (count_if (fun v => t <? bits_needed v) l).
Definition exactly (l : list N) (k : nat) : nat := count_if (fun v => bits_needed v =? k) l.
(** the bits taken by a rank index over n bits: n + n/4 + 191, without the fraction *)
Definition rank_overhead (n : N) : N := (n + n / 4 + 191)%N.
(** the bits taken by levels of widths ws from bit t on; the last level has no index *)
Fixpoint split_cost (l : list N) (t : nat) (ws : list nat) : N :=
  match ws with
  | [] => 0%N
  | w :: ws' => (wider l t * N.of_nat w + match ws' with [] => 0 | _ :: _ => rank_overhead (wider l t) + split_cost l (t + w) ws' end)%N
  end.
Definition parts_of (n : nat) (ws : list nat) : Prop := Forall (fun w => 1 <= w) ws /\ list_sum_nat ws = n.
Definition best_split (l : list N) (ws : list nat) : Prop :=
  parts_of (max_bits l) ws /\ forall ws', parts_of (max_bits l) ws' -> (split_cost l 0 ws <= split_cost l 0 ws')%N.
(** the positions between two levels *)
Fixpoint cuts (p : nat) (ws : list nat) : list nat :=
  match ws with
  | [] => []
  | w :: ws' => match ws' with [] => [] | _ :: _ => (p + w) :: cuts (p + w) ws' end
  end.
(** r is best with levels merged until mx are left: a removed cut separates no more values than a kept one; the cut before the last bit is never removed *)
Definition merged (l : list N) (mx : nat) (best r : list nat) : Prop :=
  length r = mx /\ parts_of (max_bits l) r /\ incl (cuts 0 r) (cuts 0 best) /\
  forall i j, In i (cuts 0 best) -> ~ In i (cuts 0 r) -> In j (cuts 0 r) -> j + 1 = max_bits l \/ exactly l i <= exactly l j.
