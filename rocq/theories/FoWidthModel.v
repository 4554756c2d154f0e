(** Model of string_util/FactorOracle.hpp with id_type an unsigned integer of [w] bits: every id that is stored or passed is taken
    modulo 2^w and kEmptyValue is the number 2^w - 1, which FoModel.v keeps apart from all ids. [w] is 32 in FactorOracleBaseCTAFO;
    for w >= 32 there are no promotions. Indices that the source keeps in a size_t are unbounded. *)
From Coq Require Import List NArith ZArith Arith Bool.
From Verif Require Import Base FoModel.
Import ListNotations.
Local Open Scope nat_scope.

Section Width.
Variable w : N.
(** conversion to id_type *)
Definition tr (x : nat) : nat := N.to_nat (N.of_nat x mod 2 ^ w).
(** FactorOracle.hpp:21 *)
Definition nil_id : nat := N.to_nat (2 ^ w - 1).
(** FactorOracle.hpp:23-31 *)
Record fow := { fw_check : list N; fw_base : list nat; fw_next : list nat; fw_front : nat; fw_us : list bool; fw_ut : list bool; fw_prev : list nat }.
(** FactorOracle.hpp:91-94 *)
Definition link_block_w (np : list nat * list nat) (i : nat) : res (list nat * list nat) :=
  do nx <- lset (fst np) i (tr (i + 1)); do pv <- lset (snd np) i (tr (i - 1)); Ok (nx, pv).
(** FactorOracle.hpp:76-97, with _resize 69-74 *)
Definition expand_block_w (st : fow) : res fow :=
  let b := length (fw_next st) in
  let nx := fw_next st ++ repeat 0 256 in
  let us := fw_us st ++ repeat false 256 in
  let ut := fw_ut st ++ repeat false 256 in
  let pv := fw_prev st ++ repeat 0 256 in
  let e := length nx in
  do u0 <- lget ut 0;
  do r <- (if negb (fw_front st =? 0) || negb u0 then
             do ob <- lget pv (fw_front st); do pv <- lset pv b ob; do nx <- lset nx ob (tr b);
             do pv <- lset pv (fw_front st) (tr (e - 1)); Ok (nx, pv, fw_front st)
           else do pv <- lset pv b (tr (e - 1)); Ok (nx, pv, b));
  let '(nx, pv, front) := r in
  do nx <- lset nx b (tr (b + 1));
  do np <- foldM link_block_w (seq (b + 1) 254) (nx, pv);
  let '(nx, pv) := np in
  do nx <- lset nx (e - 1) (tr front);
  do pv <- lset pv (e - 1) (tr (e - 2));
  Ok {| fw_check := fw_check st; fw_base := fw_base st; fw_next := nx; fw_front := front; fw_us := us; fw_ut := ut; fw_prev := pv |}.
(** FactorOracle.hpp:100-117 *)
Fixpoint find_loop_w (fuel : nat) (c0 : N) (ts : list nat) (st : fow) (index : nat) : res (fow * nat) :=
  match fuel with
  | O => Fuel
  | S fuel =>
      let b := slot index c0 in
      do us <- lget (fw_us st) b;
      do ok <- (if us then Ok false else slots_free (fw_check st) (fw_ut st) b ts);
      if ok then Ok (st, b) else
      do n <- lget (fw_next st) index;
      do st <- (if n =? fw_front st then expand_block_w st else Ok st);
      do n <- lget (fw_next st) index;
      find_loop_w fuel c0 ts st n
  end.
(** FactorOracle.hpp:99-119 *)
Definition find_base_w (fuel : nat) (st : fow) (ts : list nat) : res (fow * nat) :=
  do t0 <- lget ts 0; do c0 <- fo_check (fw_check st) t0; find_loop_w fuel c0 ts st (fw_front st).
(** FactorOracle.hpp:179-190 *)
Definition set_next_w (st : fow) (index x : nat) : res fow :=
  do n <- lget (fw_next st) index;
  do r <- (if n =? nil_id then Ok (fw_next st, fw_prev st, fw_front st) else
           let front := if fw_front st =? index then (if n =? fw_front st then 0 else n) else fw_front st in
           do p <- lget (fw_prev st) index;
           do nx <- lset (fw_next st) p n;
           do pv <- lset (fw_prev st) n p;
           Ok (nx, pv, front));
  let '(nx, pv, front) := r in
  do ut <- lset (fw_ut st) index true;
  do nx <- lset nx index x;
  Ok {| fw_check := fw_check st; fw_base := fw_base st; fw_next := nx; fw_front := front; fw_us := fw_us st; fw_ut := ut; fw_prev := pv |}.
(** FactorOracle.hpp:165-177 *)
Definition get_transes_w (st : fow) (state : nat) : res (list nat) :=
  do b <- lget (fw_base st) state;
  if b =? nil_id then Ok [] else
  foldM (fun ts c =>
    let c := N.of_nat c in
    do n <- lget (fw_next st) (slot b c);
    do u <- lget (fw_ut st) (slot b c);
    if u then if n =? 0 then Ok ts else do k <- fo_check (fw_check st) n; Ok (if (k =? c)%N then ts ++ [n] else ts) else Ok ts) (seq 1 255) [].
(** FactorOracle.hpp:138-145, one iteration *)
Definition move_trans_w (old_b new_b : nat) (st : fow) (t : nat) : res fow :=
  do c <- fo_check (fw_check st) t;
  let o := slot old_b c in
  do nx <- lset (fw_next st) o nil_id;
  do ut <- lset (fw_ut st) o false;
  set_next_w {| fw_check := fw_check st; fw_base := fw_base st; fw_next := nx; fw_front := fw_front st; fw_us := fw_us st; fw_ut := ut; fw_prev := fw_prev st |} (slot new_b c) t.
(** base_[state] = b *)
Definition set_base_w (st : fow) (state b : nat) : res fow :=
  do ba <- lset (fw_base st) state (tr b);
  Ok {| fw_check := fw_check st; fw_base := ba; fw_next := fw_next st; fw_front := fw_front st; fw_us := fw_us st; fw_ut := fw_ut st; fw_prev := fw_prev st |}.
(** used_state_[b] = v *)
Definition set_us_w (st : fow) (b : nat) (v : bool) : res fow :=
  do us <- lset (fw_us st) b v;
  Ok {| fw_check := fw_check st; fw_base := fw_base st; fw_next := fw_next st; fw_front := fw_front st; fw_us := us; fw_ut := fw_ut st; fw_prev := fw_prev st |}.
(** FactorOracle.hpp:121-152; both arguments are ids *)
Definition insert_trans_w (fuel : nat) (st : fow) (state next_state : nat) : res fow :=
  do c <- fo_check (fw_check st) next_state;
  do b <- lget (fw_base st) state;
  if b =? nil_id then
    do r <- find_base_w fuel st [next_state];
    let '(st, b) := r in
    do st <- set_base_w st state b;
    do st <- set_next_w st (slot b c) next_state;
    set_us_w st b true
  else
    do u <- lget (fw_ut st) (slot b c);
    if u then
      do ts <- get_transes_w st state;
      do r <- find_base_w fuel st (ts ++ [next_state]);
      let '(st, nb) := r in
      do st <- set_us_w st b false;
      do st <- set_us_w st nb true;
      do st <- set_base_w st state nb;
      do st <- foldM (move_trans_w b nb) ts st;
      set_next_w st (slot nb c) next_state
    else set_next_w st (slot b c) next_state.
(** FactorOracle.hpp:192-207; both arguments are ids, so is state + 1 *)
Definition fo_transition_w (st : fow) (state n : nat) : res nat :=
  do a <- fo_check (fw_check st) (tr (state + 1));
  do c <- fo_check (fw_check st) n;
  if (a =? c)%N then Ok (tr (state + 1)) else
  do b <- lget (fw_base st) state;
  if b =? nil_id then Ok 0 else
  do u <- lget (fw_ut st) (slot b c);
  if negb u then Ok 0 else
  do x <- lget (fw_next st) (slot b c);
  if x =? 0 then Ok 0 else
  do k <- fo_check (fw_check st) x;
  Ok (if (k =? c)%N then x else 0).
(** FactorOracle.hpp:54-57; k and i + 1 are of type size_t and converted to ids in the calls *)
Fixpoint fo_walk_w (steps fuel : nat) (lrs : list nat) (st : fow) (k n : nat) : res (fow * nat) :=
  match steps with
  | O => Fuel
  | S steps =>
      if k <? n then
        do t <- fo_transition_w st (tr k) (tr n);
        if t =? 0 then
          do st <- insert_trans_w fuel st (tr k) (tr n); do k <- lget lrs k; fo_walk_w steps fuel lrs st k n
        else Ok (st, k)
      else Ok (st, k)
  end.
(** FactorOracle.hpp:51-59, one iteration; [steps] bounds the walk along the suffix links *)
Definition fo_letter_w (steps fuel : nat) (sl : fow * list nat) (i : nat) : res (fow * list nat) :=
  let '(st, lrs) := sl in
  do lrs <- lset lrs 0 (tr (i + 1));
  do k <- lget lrs i;
  do r <- fo_walk_w steps fuel lrs st k (i + 1);
  let '(st, k) := r in
  do v <- (if k =? i + 1 then Ok 0 else fo_transition_w st (tr k) (tr (i + 1)));
  do lrs <- lset lrs (i + 1) (tr v);
  Ok (st, lrs).
(** FactorOracle.hpp:42-45 *)
Fixpoint fo_grow_w (steps : nat) (st : fow) : res fow :=
  if length (fw_next st) <? length (fw_check st) then
    match steps with O => Fuel | S steps => do st <- expand_block_w st; fo_grow_w steps st end
  else Ok st.
(** FactorOracle.hpp:155-157 *)
Definition fo_init_w (text : list N) : fow :=
  {| fw_check := text; fw_base := repeat nil_id (length text + 1); fw_next := []; fw_front := 0; fw_us := []; fw_ut := []; fw_prev := [] |}.
(** FactorOracle.hpp:63-66 *)
Definition fo_clear_w (st : fow) : list nat := map (fun p : nat * bool => if snd p then fst p else 0) (combine (fw_next st) (fw_ut st)).
(** the arrays of FactorOracleBaseCTAFO, FactorOracle.hpp:226-232 *)
Record foracle_w := { fw_chk : list N; fw_bs : list nat; fw_nx : list nat }.
(** FactorOracle.hpp:35-67 and 232 *)
Definition fo_build_w (steps fuel : nat) (text : list N) : res foracle_w :=
  do st <- fo_grow_w (length text) (fo_init_w text);
  do st <- set_next_w st 0 0;
  do r <- foldM (fo_letter_w steps fuel) (seq 0 (length text)) (st, repeat 0 (length text + 1));
  Ok {| fw_chk := text; fw_bs := fw_base (fst r); fw_nx := fo_clear_w (fst r) |}.
(** FactorOracle.hpp:283-298 *)
Definition fo_image_w (beyond : list N) (o : foracle_w) (state : nat) (c : N) : res (option nat) :=
  do a <- fo_check (fw_chk o ++ beyond) (state + 1);
  if (a =? c)%N then Ok (Some (state + 1)) else
  do b <- lget (fw_bs o) state;
  if b =? nil_id then Ok None else
  do x <- lget (fw_nx o) (slot b c);
  if x <=? state then Ok None else
  do k <- fo_check (fw_chk o ++ beyond) x;
  Ok (if (k =? c)%N then Some x else None).
(** FactorOracle.hpp:300-312 *)
Fixpoint fo_accept_from_w (beyond : list N) (o : foracle_w) (state : nat) (q : list N) : res bool :=
  match q with
  | [] => Ok true
  | c :: q => do s <- fo_image_w beyond o state c; match s with None => Ok false | Some s => fo_accept_from_w beyond o s q end
  end.
Definition fo_accept_w (beyond : list N) (o : foracle_w) (q : list N) : res bool := fo_accept_from_w beyond o 0 q.
End Width.
