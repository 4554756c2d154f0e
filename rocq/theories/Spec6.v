(** Specification of the strings which SuffixArray sorts, independent of the models. *)
From Coq Require Import List NArith Arith Sorted.
From Verif Require Import Spec5.
Import ListNotations.

(** a position whose suffix is smaller than both neighbours; the end of the string is one *)
Definition valley (s : list N) (i : nat) : Prop := 0 < i <= length s /\ lex_lt (skipn i s) (skipn (i - 1) s) /\ (i < length s -> lex_lt (skipn i s) (skipn (S i) s)).
(** [p] and [q] start the same characters up to and including the next valley *)
Definition same_stretch (s : list N) (p q : nat) : Prop :=
  exists d, 0 < d /\ valley s (p + d) /\ valley s (q + d) /\ (forall e, 0 < e < d -> ~ valley s (p + e) /\ ~ valley s (q + e)) /\ forall e, e <= d -> nth_error s (p + e) = nth_error s (q + e).
(** [r] replaces every valley before the end by the rank, from 1 on, of its stretch *)
Definition reduces (s r : list N) : Prop :=
  exists vs, StronglySorted lt vs /\ (forall i, In i vs <-> valley s i /\ i < length s) /\ length r = length vs /\
    (forall a b, a < length vs -> b < length vs -> (nth a r 0 < nth b r 0)%N <-> lex_lt (skipn (nth a vs 0) s) (skipn (nth b vs 0) s) /\ ~ same_stretch s (nth a vs 0) (nth b vs 0)) /\
    (forall v, (exists x, In x r /\ v <= x)%N -> (0 < v)%N <-> In v r).
(** the positions with equal stretches already stand in the order of their suffixes in the text, or, where two valleys have equal stretches, this holds of the reduced string *)
Inductive sortable : list N -> Prop :=
| sortable_first : forall s, (forall p q, valley s p -> valley s q -> same_stretch s p q -> p = q) -> (forall p q, p < q -> q < length s -> same_stretch s p q -> lex_lt (skipn p s) (skipn q s)) -> sortable s
| sortable_reduced : forall s p q, valley s p -> valley s q -> same_stretch s p q -> p <> q -> (forall r, reduces s r -> sortable r) -> sortable s.
