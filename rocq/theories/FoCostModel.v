(** The loop of FactorOracle that adds the letters, counting its calls of transition and _insert_trans. *)
From Coq Require Import List NArith Arith Bool.
From Verif Require Import Base CostBase FoModel.
Import ListNotations.
Local Open Scope nat_scope.

(** FactorOracle.hpp:54-57 *)
Fixpoint fo_walk_c (steps fuel : nat) (lrs : list nat) (st : fob) (k n : nat) : cres (fob * nat) :=
  match steps with
  | O => free Fuel
  | S steps =>
      if k <? n then
        count t <- paid (fo_transition st k n);
        if t =? 0 then
          count st <- paid (insert_trans fuel st k n); count k <- free (lget lrs k); fo_walk_c steps fuel lrs st k n
        else cret (st, k)
      else cret (st, k)
  end.
(** FactorOracle.hpp:51-59, one iteration *)
Definition fo_letter_c (fuel : nat) (sl : fob * list nat) (i : nat) : cres (fob * list nat) :=
  let '(st, lrs) := sl in
  count lrs <- free (lset lrs 0 (i + 1));
  count k <- free (lget lrs i);
  count r <- fo_walk_c (i + 3) fuel lrs st k (i + 1);
  let '(st, k) := r in
  count v <- (if k =? i + 1 then cret 0 else paid (fo_transition st k (i + 1)));
  count lrs <- free (lset lrs (i + 1) v);
  cret (st, lrs).
(** FactorOracle.hpp:51-59 *)
Fixpoint fo_letters_c (fuel : nat) (is : list nat) (sl : fob * list nat) : cres (fob * list nat) :=
  match is with [] => cret sl | i :: is => count sl <- fo_letter_c fuel sl i; fo_letters_c fuel is sl end.
(** FactorOracle.hpp:35-67 and 232 *)
Definition fo_build_c (fuel : nat) (text : list N) : cres foracle :=
  count st <- free (fo_grow (length text) (fo_init text));
  count st <- free (set_next st 0 0);
  count r <- fo_letters_c fuel (seq 0 (length text)) (st, repeat 0 (length text + 1));
  cret {| fo_chk := text; fo_base := fb_base (fst r); fo_next := fo_clear (fst r) |}.
