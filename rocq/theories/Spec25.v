(** Independent specifications, twenty-fifth part: Sunday's maximal shift search (C125). *)
From Coq Require Import List NArith Arith Permutation Sorted.
From Verif Require Import MatchSpec.
Import ListNotations.
Local Open Scope nat_scope.

(** how far the key must move to the right until position i meets the same character again, or none *)
Definition own_shift (key : list N) (i d : nat) : Prop :=
  (exists j, last_below key i (nth i key 0%N) j /\ d = i - j) \/ (absent_below key i (nth i key 0%N) /\ d = i + 1).
(** the order in which the positions of the key are compared: by their shifts, then from left to right *)
Definition before (key : list N) (a b : nat) : Prop := exists da db, own_shift key a da /\ own_shift key b db /\ (da < db \/ da = db /\ a < b).
Definition scan_order (key : list N) (order : list nat) : Prop := Permutation order (seq 0 (length key)) /\ StronglySorted (before key) order.
(** the first pos positions of the order agree with the text at i, the next one does not *)
Definition agreeing (key text : list N) (order : list nat) (i pos : nat) : Prop :=
  pos <= length key /\ (forall q, q < pos -> nth (nth q order 0) key 0%N = nth (i + nth q order 0) text 0%N) /\
  (pos < length key -> nth (nth pos order 0) key 0%N <> nth (i + nth pos order 0) text 0%N).
(** the key moved by d agrees with what was seen, and has another character where it did not agree *)
Definition plausible (key : list N) (order : list nat) (pos d : nat) : Prop :=
  (forall q, q < pos -> d <= nth q order 0 -> nth (nth q order 0 - d) key 0%N = nth (nth q order 0) key 0%N) /\
  (pos < length key -> d <= nth pos order 0 -> nth (nth pos order 0 - d) key 0%N <> nth (nth pos order 0) key 0%N).
Definition seen_shift (key : list N) (order : list nat) (pos d : nat) : Prop :=
  1 <= d /\ plausible key order pos d /\ forall d', 1 <= d' < d -> ~ plausible key order pos d'.
(** the character behind the window meets the same character of the key, or the window passes it *)
Definition behind_shift (key : list N) (c : N) (d : nat) : Prop :=
  (exists j, last_below key (length key) c j /\ d = length key - j) \/ (absent_below key (length key) c /\ d = length key + 1).
(** the windows inspected from the one at i on *)
Inductive ms_reaches (key text : list N) (order : list nat) : nat -> nat -> Prop :=
| MSHere i : ms_reaches key text order i i
| MSStep i pos d1 d2 w : i + length key < length text -> agreeing key text order i pos ->
    behind_shift key (nth (i + length key) text 0%N) d1 -> seen_shift key order pos d2 ->
    ms_reaches key text order (i + Nat.max d1 d2) w -> ms_reaches key text order i w.
