(** The construction of the factor oracle in a build with assertions on (NDEBUG not defined): the functions of FoModel.v with the three assert lines of string_util/FactorOracle.hpp.
    [Throw] stands for a failed assertion, which aborts the program. *)
From Coq Require Import List NArith ZArith Arith Bool.
From Verif Require Import Base FoModel.
Import ListNotations.
Local Open Scope nat_scope.

(** assert(b) *)
Definition assert_that (b : bool) : res unit := if b then Ok tt else Throw.
(** FactorOracle.hpp:100-117 with the assertion of line 101 *)
Fixpoint find_loop_d (fuel : nat) (c0 : N) (ts : list nat) (st : fob) (index : nat) : res (fob * nat) :=
  match fuel with
  | O => Fuel
  | S fuel =>
      do u <- lget (fb_ut st) index; do _ <- assert_that (negb u);
      let b := slot index c0 in
      do us <- lget (fb_us st) b;
      do ok <- (if us then Ok false else slots_free (fb_check st) (fb_ut st) b ts);
      if ok then Ok (st, b) else
      do n <- lget (fb_next st) index; do n <- some_id n;
      do st <- (if n =? fb_front st then expand_block st else Ok st);
      do n <- lget (fb_next st) index; do n <- some_id n;
      find_loop_d fuel c0 ts st n
  end.
(** FactorOracle.hpp:99-119 *)
Definition find_base_d (fuel : nat) (st : fob) (ts : list nat) : res (fob * nat) :=
  do t0 <- lget ts 0; do c0 <- fo_check (fb_check st) t0; find_loop_d fuel c0 ts st (fb_front st).
(** FactorOracle.hpp:179-190 with the assertion of line 180 *)
Definition set_next_d (st : fob) (index x : nat) : res fob :=
  do u <- lget (fb_ut st) index; do _ <- assert_that (negb u); set_next st index x.
(** FactorOracle.hpp:138-145, one iteration, with the assertion of line 141 *)
Definition move_trans_d (old_b new_b : nat) (st : fob) (t : nat) : res fob :=
  do c <- fo_check (fb_check st) t;
  let o := slot old_b c in
  do u <- lget (fb_ut st) o; do _ <- assert_that u;
  do nx <- lset (fb_next st) o None;
  do ut <- lset (fb_ut st) o false;
  set_next_d {| fb_check := fb_check st; fb_base := fb_base st; fb_next := nx; fb_front := fb_front st; fb_us := fb_us st; fb_ut := ut; fb_prev := fb_prev st |} (slot new_b c) t.
(** FactorOracle.hpp:121-152 *)
Definition insert_trans_d (fuel : nat) (st : fob) (state next_state : nat) : res fob :=
  do c <- fo_check (fb_check st) next_state;
  do b <- lget (fb_base st) state;
  match b with
  | None =>
      do r <- find_base_d fuel st [next_state];
      let '(st, b) := r in
      do st <- set_base st state b;
      do st <- set_next_d st (slot b c) next_state;
      set_us st b true
  | Some b =>
      do u <- lget (fb_ut st) (slot b c);
      if u then
        do ts <- get_transes st state;
        do r <- find_base_d fuel st (ts ++ [next_state]);
        let '(st, nb) := r in
        do st <- set_us st b false;
        do st <- set_us st nb true;
        do st <- set_base st state nb;
        do st <- foldM (move_trans_d b nb) ts st;
        set_next_d st (slot nb c) next_state
      else set_next_d st (slot b c) next_state
  end.
(** FactorOracle.hpp:54-57 *)
Fixpoint fo_walk_d (steps fuel : nat) (lrs : list nat) (st : fob) (k n : nat) : res (fob * nat) :=
  match steps with
  | O => Fuel
  | S steps =>
      if k <? n then
        do t <- fo_transition st k n;
        if t =? 0 then
          do st <- insert_trans_d fuel st k n; do k <- lget lrs k; fo_walk_d steps fuel lrs st k n
        else Ok (st, k)
      else Ok (st, k)
  end.
(** FactorOracle.hpp:51-59, one iteration *)
Definition fo_letter_d (fuel : nat) (sl : fob * list nat) (i : nat) : res (fob * list nat) :=
  let '(st, lrs) := sl in
  do lrs <- lset lrs 0 (i + 1);
  do k <- lget lrs i;
  do r <- fo_walk_d (i + 3) fuel lrs st k (i + 1);
  let '(st, k) := r in
  do v <- (if k =? i + 1 then Ok 0 else fo_transition st k (i + 1));
  do lrs <- lset lrs (i + 1) v;
  Ok (st, lrs).
(** FactorOracle.hpp:35-67 and 232 *)
Definition fo_build_d (fuel : nat) (text : list N) : res foracle :=
  do st <- fo_grow (length text) (fo_init text);
  do st <- set_next_d st 0 0;
  do r <- foldM (fo_letter_d fuel) (seq 0 (length text)) (st, repeat 0 (length text + 1));
  Ok {| fo_chk := text; fo_base := fb_base (fst r); fo_next := fo_clear (fst r) |}.
