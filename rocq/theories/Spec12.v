(** Specification of the order in which SuffixArray lists the positions of a string, independent of the models. *)
From Coq Require Import List NArith Arith Sorted.
From Verif Require Import Spec5 Spec6.
Import ListNotations.

(** [a] valleys stand at or before [p], so the next valley after [p] is number [a], counted from 0 *)
Definition valleys_upto (s : list N) (p a : nat) : Prop := exists vs, StronglySorted lt vs /\ (forall i, In i vs <-> valley s i /\ i <= p) /\ length vs = a.
(** [p] is listed before [q]: by their suffixes when the stretches differ; equal stretches stand in text order when no two valleys have equal stretches,
    and otherwise in the order of the numbers of the next valleys in the listing of the reduced string *)
Inductive listed_before : list N -> nat -> nat -> Prop :=
| before_stretch : forall s p q, lex_lt (skipn p s) (skipn q s) -> ~ same_stretch s p q -> listed_before s p q
| before_text : forall s p q, (forall x y, valley s x -> valley s y -> same_stretch s x y -> x = y) -> same_stretch s p q -> p < q -> listed_before s p q
| before_reduced : forall s r x y p q a b, valley s x -> valley s y -> same_stretch s x y -> x <> y -> reduces s r ->
    same_stretch s p q -> valleys_upto s p a -> valleys_upto s q b -> listed_before r a b -> listed_before s p q.
