(** Model of string_util/FactorOracle.hpp and of Bom and TurboBom in string_util/PatternMatching.hpp.
    The factor oracle is stored in a double array: the edge from state s with character c is in slot base[s] xor c.
    An id_type is [option nat], None being kEmptyValue = 2^32 - 1; ids are taken to stay below that value.
    The bit vectors used_state_ and used_trans_ are lists of bool (see C13, C15). *)
From Coq Require Import List NArith ZArith Arith Bool.
From Verif Require Import Base PatternModel.
Import ListNotations.
Local Open Scope nat_scope.

(** FactorOracle.hpp:23-31 *)
Record fob := { fb_check : list N; fb_base : list (option nat); fb_next : list (option nat); fb_front : nat; fb_us : list bool; fb_ut : list bool; fb_prev : list nat }.
(** b ^ c *)
Definition slot (b : nat) (c : N) : nat := N.to_nat (N.lxor (N.of_nat b) c).
(** an id used as a number: kEmptyValue is outside every array *)
Definition some_id (x : option nat) : res nat := match x with Some n => Ok n | None => UB end.
(** FactorOracle.hpp:209 *)
Definition fo_check (ck : list N) (i : nat) : res N := match i with O => Ok 0%N | S j => lget ck j end.

(** FactorOracle.hpp:91-94 *)
Definition link_block (np : list (option nat) * list nat) (i : nat) : res (list (option nat) * list nat) :=
  do nx <- lset (fst np) i (Some (i + 1)); do pv <- lset (snd np) i (i - 1); Ok (nx, pv).
(** FactorOracle.hpp:76-97, with _resize 69-74 *)
Definition expand_block (st : fob) : res fob :=
  let b := length (fb_next st) in
  let nx := fb_next st ++ repeat (Some 0) 256 in
  let us := fb_us st ++ repeat false 256 in
  let ut := fb_ut st ++ repeat false 256 in
  let pv := fb_prev st ++ repeat 0 256 in
  let e := length nx in
  do u0 <- lget ut 0;
  do r <- (if negb (fb_front st =? 0) || negb u0 then
             do ob <- lget pv (fb_front st); do pv <- lset pv b ob; do nx <- lset nx ob (Some b);
             do pv <- lset pv (fb_front st) (e - 1); Ok (nx, pv, fb_front st)
           else do pv <- lset pv b (e - 1); Ok (nx, pv, b));
  let '(nx, pv, front) := r in
  do nx <- lset nx b (Some (b + 1));
  do np <- foldM link_block (seq (b + 1) 254) (nx, pv);
  let '(nx, pv) := np in
  do nx <- lset nx (e - 1) (Some front);
  do pv <- lset pv (e - 1) (e - 2);
  Ok {| fb_check := fb_check st; fb_base := fb_base st; fb_next := nx; fb_front := front; fb_us := us; fb_ut := ut; fb_prev := pv |}.

(** FactorOracle.hpp:105-110: is every slot needed free *)
Fixpoint slots_free (ck : list N) (ut : list bool) (b : nat) (ts : list nat) : res bool :=
  match ts with
  | [] => Ok true
  | t :: ts => do c <- fo_check ck t; do u <- lget ut (slot b c); if u then Ok false else slots_free ck ut b ts
  end.
(** FactorOracle.hpp:100-117; [c0] = check(transes.front()) *)
Fixpoint find_loop (fuel : nat) (c0 : N) (ts : list nat) (st : fob) (index : nat) : res (fob * nat) :=
  match fuel with
  | O => Fuel
  | S fuel =>
      let b := slot index c0 in
      do us <- lget (fb_us st) b;
      do ok <- (if us then Ok false else slots_free (fb_check st) (fb_ut st) b ts);
      if ok then Ok (st, b) else
      do n <- lget (fb_next st) index; do n <- some_id n;
      do st <- (if n =? fb_front st then expand_block st else Ok st);
      do n <- lget (fb_next st) index; do n <- some_id n;
      find_loop fuel c0 ts st n
  end.
(** FactorOracle.hpp:99-119 *)
Definition find_base (fuel : nat) (st : fob) (ts : list nat) : res (fob * nat) :=
  do t0 <- lget ts 0; do c0 <- fo_check (fb_check st) t0; find_loop fuel c0 ts st (fb_front st).

(** FactorOracle.hpp:179-190 *)
Definition set_next (st : fob) (index x : nat) : res fob :=
  do n <- lget (fb_next st) index;
  do r <- match n with
          | None => Ok (fb_next st, fb_prev st, fb_front st)
          | Some n =>
              let front := if fb_front st =? index then (if n =? fb_front st then 0 else n) else fb_front st in
              do p <- lget (fb_prev st) index;
              do nx <- lset (fb_next st) p (Some n);
              do pv <- lset (fb_prev st) n p;
              Ok (nx, pv, front)
          end;
  let '(nx, pv, front) := r in
  do ut <- lset (fb_ut st) index true;
  do nx <- lset nx index (Some x);
  Ok {| fb_check := fb_check st; fb_base := fb_base st; fb_next := nx; fb_front := front; fb_us := fb_us st; fb_ut := ut; fb_prev := pv |}.

(** FactorOracle.hpp:165-177; the loop starts at 1, so edges with character 0 are not listed *)
Definition get_transes (st : fob) (state : nat) : res (list nat) :=
  do b <- lget (fb_base st) state;
  match b with
  | None => Ok []
  | Some b =>
      foldM (fun ts c =>
        let c := N.of_nat c in
        do n <- lget (fb_next st) (slot b c);
        do u <- lget (fb_ut st) (slot b c);
        if u then
          (match n with
           | Some O => Ok ts
           | _ => do n <- some_id n; do k <- fo_check (fb_check st) n; Ok (if (k =? c)%N then ts ++ [n] else ts)
           end)
        else Ok ts) (seq 1 255) []
  end.

(** FactorOracle.hpp:138-145, one iteration *)
Definition move_trans (old_b new_b : nat) (st : fob) (t : nat) : res fob :=
  do c <- fo_check (fb_check st) t;
  let o := slot old_b c in
  do nx <- lset (fb_next st) o None;
  do ut <- lset (fb_ut st) o false;
  set_next {| fb_check := fb_check st; fb_base := fb_base st; fb_next := nx; fb_front := fb_front st; fb_us := fb_us st; fb_ut := ut; fb_prev := fb_prev st |} (slot new_b c) t.
(** base_[state] = b *)
Definition set_base (st : fob) (state b : nat) : res fob :=
  do ba <- lset (fb_base st) state (Some b);
  Ok {| fb_check := fb_check st; fb_base := ba; fb_next := fb_next st; fb_front := fb_front st; fb_us := fb_us st; fb_ut := fb_ut st; fb_prev := fb_prev st |}.
(** used_state_[b] = v *)
Definition set_us (st : fob) (b : nat) (v : bool) : res fob :=
  do us <- lset (fb_us st) b v;
  Ok {| fb_check := fb_check st; fb_base := fb_base st; fb_next := fb_next st; fb_front := fb_front st; fb_us := us; fb_ut := fb_ut st; fb_prev := fb_prev st |}.
(** FactorOracle.hpp:121-152 *)
Definition insert_trans (fuel : nat) (st : fob) (state next_state : nat) : res fob :=
  do c <- fo_check (fb_check st) next_state;
  do b <- lget (fb_base st) state;
  match b with
  | None =>
      do r <- find_base fuel st [next_state];
      let '(st, b) := r in
      do st <- set_base st state b;
      do st <- set_next st (slot b c) next_state;
      set_us st b true
  | Some b =>
      do u <- lget (fb_ut st) (slot b c);
      if u then
        do ts <- get_transes st state;
        do r <- find_base fuel st (ts ++ [next_state]);
        let '(st, nb) := r in
        do st <- set_us st b false;
        do st <- set_us st nb true;
        do st <- set_base st state nb;
        do st <- foldM (move_trans b nb) ts st;
        set_next st (slot nb c) next_state
      else set_next st (slot b c) next_state
  end.

(** FactorOracle.hpp:192-207 *)
Definition fo_transition (st : fob) (state n : nat) : res nat :=
  do a <- fo_check (fb_check st) (state + 1);
  do c <- fo_check (fb_check st) n;
  if (a =? c)%N then Ok (state + 1) else
  do b <- lget (fb_base st) state;
  match b with
  | None => Ok 0
  | Some b =>
      do u <- lget (fb_ut st) (slot b c);
      if negb u then Ok 0 else
      do x <- lget (fb_next st) (slot b c); do x <- some_id x;
      if x =? 0 then Ok 0 else
      do k <- fo_check (fb_check st) x;
      Ok (if (k =? c)%N then x else 0)
  end.

(** FactorOracle.hpp:54-57; [steps] bounds the length of a chain of suffix links, [fuel] the search for a base *)
Fixpoint fo_walk (steps fuel : nat) (lrs : list nat) (st : fob) (k n : nat) : res (fob * nat) :=
  match steps with
  | O => Fuel
  | S steps =>
      if k <? n then
        do t <- fo_transition st k n;
        if t =? 0 then
          do st <- insert_trans fuel st k n; do k <- lget lrs k; fo_walk steps fuel lrs st k n
        else Ok (st, k)
      else Ok (st, k)
  end.
(** FactorOracle.hpp:51-59, one iteration *)
Definition fo_letter (fuel : nat) (sl : fob * list nat) (i : nat) : res (fob * list nat) :=
  let '(st, lrs) := sl in
  do lrs <- lset lrs 0 (i + 1);
  do k <- lget lrs i;
  do r <- fo_walk (i + 3) fuel lrs st k (i + 1);
  let '(st, k) := r in
  do v <- (if k =? i + 1 then Ok 0 else fo_transition st k (i + 1));
  do lrs <- lset lrs (i + 1) v;
  Ok (st, lrs).
(** FactorOracle.hpp:42-45 *)
Fixpoint fo_grow (steps : nat) (st : fob) : res fob :=
  if length (fb_next st) <? length (fb_check st) then
    match steps with O => Fuel | S steps => do st <- expand_block st; fo_grow steps st end
  else Ok st.
(** FactorOracle.hpp:155-157 *)
Definition fo_init (text : list N) : fob :=
  {| fb_check := text; fb_base := repeat None (length text + 1); fb_next := []; fb_front := 0; fb_us := []; fb_ut := []; fb_prev := [] |}.
(** FactorOracle.hpp:63-66 *)
Definition fo_clear (st : fob) : list (option nat) := map (fun p : option nat * bool => if snd p then fst p else Some 0) (combine (fb_next st) (fb_ut st)).
(** the arrays of FactorOracleBaseCTAFO, FactorOracle.hpp:226-232 *)
Record foracle := { fo_chk : list N; fo_base : list (option nat); fo_next : list (option nat) }.
(** FactorOracle.hpp:35-67 and 232 *)
Definition fo_build (fuel : nat) (text : list N) : res foracle :=
  do st <- fo_grow (length text) (fo_init text);
  do st <- set_next st 0 0;
  do r <- foldM (fo_letter fuel) (seq 0 (length text)) (st, repeat 0 (length text + 1));
  Ok {| fo_chk := text; fo_base := fb_base (fst r); fo_next := fo_clear (fst r) |}.

(** FactorOracle.hpp:283-298; the new state, or None for false. [beyond] are the bytes behind check_, of which line 284 reads one in the last state *)
Definition fo_image (beyond : list N) (o : foracle) (state : nat) (c : N) : res (option nat) :=
  do a <- fo_check (fo_chk o ++ beyond) (state + 1);
  if (a =? c)%N then Ok (Some (state + 1)) else
  do b <- lget (fo_base o) state;
  match b with
  | None => Ok None
  | Some b =>
      do x <- lget (fo_next o) (slot b c); do x <- some_id x;
      if x <=? state then Ok None else
      do k <- fo_check (fo_chk o ++ beyond) x;
      Ok (if (k =? c)%N then Some x else None)
  end.
(** FactorOracle.hpp:300-312 *)
Fixpoint fo_accept_from (beyond : list N) (o : foracle) (state : nat) (w : list N) : res bool :=
  match w with
  | [] => Ok true
  | c :: w => do s <- fo_image beyond o state c; match s with None => Ok false | Some s => fo_accept_from beyond o s w end
  end.
Definition fo_accept (beyond : list N) (o : foracle) (w : list N) : res bool := fo_accept_from beyond o 0 w.

(** PatternMatching.hpp:172-173: read backwards from position pos1 - 1 while the oracle accepts, at most [cnt] characters; the number not read *)
Fixpoint bom_back (beyond : list N) (o : foracle) (text : list N) (cnt pos1 state : nat) : res nat :=
  match cnt with
  | O => Ok 0
  | S cnt =>
      match pos1 with
      | O => UB
      | S pos => do c <- lget text pos; do s <- fo_image beyond o state c;
                 match s with None => Ok (S cnt) | Some s => bom_back beyond o text cnt pos s end
      end
  end.
(** PatternMatching.hpp:169-180; at [i] the window ends; [r] characters of it were not read, so pos = i - m + r *)
Fixpoint bom_loop (fuel : nat) (beyond : list N) (o : foracle) (m : nat) (text : list N) (i : nat) : res (list nat) :=
  if i <? length text then
    match fuel with
    | O => Fuel
    | S fuel =>
        do r <- bom_back beyond o text m (S i) 0;
        if r =? 0 then do l <- bom_loop fuel beyond o m text (i + 1); Ok ((i + 1 - m) :: l)
        else bom_loop fuel beyond o m text (i + r)
    end
  else Ok [].
(** PatternMatching.hpp:157-182 *)
Definition match_bom (fuel : nat) (beyond text key : list N) : res (list nat) :=
  do o <- fo_build fuel (rev key); bom_loop (S (length text)) beyond o (length key) text (length key - 1).

(** PatternMatching.hpp:201-208; [mem] is the key with the bytes behind it *)
Fixpoint tbom_kmp (mem : list N) (m : nat) (next : list Z) (text : list N) (pos : Z) : res Z :=
  match text with
  | [] => Ok pos
  | c :: text => do pos <- kmp_back (S m) mem next c pos; tbom_kmp mem m next text (pos + 1)%Z
  end.
(** PatternMatching.hpp:220-238; kAlpha * kWindowSize is taken to be exact, which it is for keys shorter than 2^24 *)
Fixpoint tbom_loop (fuel : nat) (beyond mem : list N) (next : list Z) (o : foracle) (m : nat) (text : list N) (back critpos : Z) : res (list nat) :=
  if (back <? Z.of_nat (length text))%Z then
    match fuel with
    | O => Fuel
    | S fuel =>
        if (back <? 0)%Z then UB else
        do r <- bom_back beyond o text m (S (Z.to_nat back)) 0;
        let begin := (back - Z.of_nat m + 1)%Z in
        if r =? 0 then
          do n <- lget next m;
          do l <- tbom_loop fuel beyond mem next o m text (back + Z.of_nat m - n)%Z (back + 1)%Z;
          Ok (Z.to_nat begin :: l)
        else
          let pos := (begin + Z.of_nat r)%Z in
          let prefix := if (critpos <? pos)%Z then 0%Z else (critpos - begin)%Z in
          let kb := Z.max pos critpos in
          if (Z.of_nat (length text) <? kb)%Z then Throw else
          do n <- tbom_kmp mem m next (firstn (Nat.div2 m) (skipn (Z.to_nat kb) text)) prefix;
          let critpos := (kb + Z.of_nat (Nat.div2 m))%Z in
          tbom_loop fuel beyond mem next o m text (critpos - n + Z.of_nat m - 1)%Z critpos
    end
  else Ok [].
(** PatternMatching.hpp:187-240. [fuel] bounds the search for a base and [steps] the number of windows; [beyond] are the bytes behind the array of the oracle, [beyond_key] those behind the key *)
Definition match_tbom (fuel steps : nat) (beyond beyond_key text key : list N) : res (list nat) :=
  do o <- fo_build fuel (rev key);
  do next <- kmp_make key;
  tbom_loop steps beyond (key ++ beyond_key) next o (length key) text (Z.of_nat (length key) - 1)%Z 0%Z.
