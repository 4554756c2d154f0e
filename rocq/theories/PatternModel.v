(** Model of string_util/PatternMatching.hpp: Simple, Kmp, Bm, SundayQS, SundayMS.
    Strings are lists of bytes. [char] is signed, so a byte from 128 on is negative when used as an index.
    The vector [matchies] is returned as the list of values pushed, in order. *)
From Coq Require Import List NArith ZArith Arith Bool.
From Verif Require Import Base.
Import ListNotations.
Local Open Scope nat_scope.

(** a [char] converted to size_t and used as an index: negative values are out of any range *)
Definition char_index (c : N) : res nat := if (c <? 128)%N then Ok (N.to_nat c) else UB.

(** PatternMatching.hpp:57-59 *)
Fixpoint simple_pos (fuel : nat) (key text : list N) (i pos : nat) : res nat :=
  match fuel with
  | O => Fuel
  | S fuel =>
      if pos <? length key then
        do a <- lget key pos; do b <- lget text (i + pos);
        if (a =? b)%N then simple_pos fuel key text i (S pos) else Ok pos
      else Ok pos
  end.
(** PatternMatching.hpp:56-62 *)
Fixpoint simple_loop (fuel : nat) (key text : list N) (i : nat) : res (list nat) :=
  if length text - length key <? i then Ok [] else
  match fuel with
  | O => Fuel
  | S fuel =>
      do pos <- simple_pos (S (length key)) key text i 0;
      do r <- simple_loop fuel key text (S i);
      Ok (if pos =? length key then i :: r else r)
  end.
(** PatternMatching.hpp:50-64 *)
Definition match_simple (text key : list N) : res (list nat) :=
  if length text <? length key then Ok [] else simple_loop (S (length text)) key text 0.

(** PatternMatching.hpp:78-79 and 99-100; [n] = -1 stands for size_t(-1). [mem] is the memory read through key_ *)
Fixpoint kmp_back (fuel : nat) (mem : list N) (next : list Z) (c : N) (n : Z) : res Z :=
  if (n =? -1)%Z then Ok n else
  do k <- lget mem (Z.to_nat n);
  if (k =? c)%N then Ok n else
  match fuel with
  | O => Fuel
  | S fuel => do n <- lget next (Z.to_nat n); kmp_back fuel mem next c n
  end.
(** PatternMatching.hpp:77-85, one iteration *)
Definition kmp_fill (key : list N) (st : list Z * Z) (i : nat) : res (list Z * Z) :=
  let '(next, n) := st in
  do c <- lget key i;
  do n <- kmp_back (S (length key)) key next c n;
  let n := (n + 1)%Z in
  do v <- (if i + 1 <? length key then
             do a <- lget key (i + 1); do b <- lget key (Z.to_nat n);
             if (a =? b)%N then lget next (Z.to_nat n) else Ok n
           else Ok n);
  do next <- lset next (i + 1) v;
  Ok (next, n).
(** PatternMatching.hpp:74-86 *)
Definition kmp_make (key : list N) : res (list Z) :=
  do next <- lset (repeat 0%Z (length key + 1)) 0 (-1)%Z;
  do r <- foldM (kmp_fill key) (seq 0 (length key)) (next, (-1)%Z);
  Ok (fst r).
(** PatternMatching.hpp:98-105. [mem] is the key with the bytes that follow it in memory: line 99 reads key_[key_.size()] after a match *)
Fixpoint kmp_loop (mem : list N) (m : nat) (next : list Z) (text : list N) (i : nat) (pos : Z) : res (list nat) :=
  match text with
  | [] => Ok []
  | c :: text =>
      do pos <- kmp_back (S m) mem next c pos;
      let pos := (pos + 1)%Z in
      do r <- kmp_loop mem m next text (S i) pos;
      Ok (if (pos =? Z.of_nat m)%Z then (i + 1 - m) :: r else r)
  end.
(** PatternMatching.hpp:94-107 with the key followed by the bytes [beyond] *)
Definition match_kmp (beyond text key : list N) : res (list nat) :=
  do next <- kmp_make key; kmp_loop (key ++ beyond) (length key) next text 0 0%Z.

(** PatternMatching.hpp:117-121; key.size() - 1 wraps for an empty key, which then is read out of range *)
Definition bm_make (key : list N) : res (list nat) :=
  if length key =? 0 then UB else
  foldM (fun skip i => do c <- lget key i; do x <- char_index c; lset skip x (length key - i - 1)) (seq 0 (length key - 1)) (repeat (length key) 255).
(** PatternMatching.hpp:138-141: compare backwards, [cnt] = k + 1, [pos1] = pos + 1; true iff k reached -1 *)
Fixpoint bm_back (key text : list N) (cnt pos1 : nat) : res bool :=
  match cnt with
  | O => Ok true
  | S k => do a <- lget key k; match pos1 with O => UB | S pos => do b <- lget text pos; if (a =? b)%N then bm_back key text k pos else Ok false end
  end.
(** PatternMatching.hpp:135-145 *)
Fixpoint bm_loop (fuel : nat) (key text : list N) (skip : list nat) (i : nat) : res (list nat) :=
  if length text <=? i then Ok [] else
  match fuel with
  | O => Fuel
  | S fuel =>
      do b <- bm_back key text (length key) (S i);
      do c <- lget text i; do x <- char_index c; do s <- lget skip x;
      do r <- bm_loop fuel key text skip (i + s);
      Ok (if b then (i + 1 - length key) :: r else r)
  end.
(** PatternMatching.hpp:129-147 *)
Definition match_bm (text key : list N) : res (list nat) :=
  do skip <- bm_make key; bm_loop (S (length text)) key text skip (length key - 1).

(** PatternMatching.hpp:255-258: 1 + the last j < cnt with key[j] = c, 0 if none *)
Fixpoint last_same (key : list N) (c : N) (cnt : nat) : res nat :=
  match cnt with
  | O => Ok 0
  | S j => do k <- lget key j; if (k =? c)%N then Ok cnt else last_same key c j
  end.
(** PatternMatching.hpp:253-260; line 259 is i - j *)
Definition min_shifts (key : list N) : res (list nat) :=
  mapM (fun i => do c <- lget key i; do j1 <- last_same key c i; Ok (i + 1 - j1)) (seq 0 (length key)).
(** PatternMatching.hpp:261-264 *)
Definition pat_less (ms : list nat) (l r : nat * N) : bool :=
  let a := nth (fst l) ms 0 in let b := nth (fst r) ms 0 in if negb (a =? b) then a <? b else fst l <? fst r.
(** std::sort of line 267: a total order, so every correct sort gives this list *)
Fixpoint sort_insert (less : nat * N -> nat * N -> bool) (x : nat * N) (l : list (nat * N)) : list (nat * N) :=
  match l with [] => [x] | y :: r => if less x y then x :: l else y :: sort_insert less x r end.
Definition sort_pats (less : nat * N -> nat * N -> bool) (l : list (nat * N)) : list (nat * N) := fold_right (sort_insert less) [] l.
(** PatternMatching.hpp:251-268 *)
Definition sunday_make (key : list N) : res (list (nat * N)) :=
  do ms <- min_shifts key; Ok (sort_pats (pat_less ms) (combine (seq 0 (length key)) key)).

(** uint8_t == char: both promoted to int, the char is negative from 128 on *)
Definition same_char (p c : N) : bool := (p =? c)%N && (c <? 128)%N.
(** PatternMatching.hpp:284-289 *)
Definition qs_make (key : list N) : res (list nat) :=
  foldM (fun td i => do c <- lget key i; do x <- char_index c; lset td x (length key - i)) (seq 0 (length key)) (repeat (length key + 1) 255).
(** PatternMatching.hpp:304-308, 376-380: number of leading patterns that agree; &pattern_[0] of an empty vector is taken as harmless *)
Fixpoint sunday_pos (pats : list (nat * N)) (text : list N) (i pos : nat) : res nat :=
  match pats with
  | [] => Ok pos
  | p :: pats => do c <- lget text (i + fst p); if same_char (snd p) c then sunday_pos pats text i (S pos) else Ok pos
  end.
(** PatternMatching.hpp:303-314 and 375-386; [shift pos] is delta2, or 0 for quick search. Line 303 subtracts in size_t *)
Fixpoint sunday_loop (fuel : nat) (m : nat) (pats : list (nat * N)) (td1 : list nat) (shift : nat -> res nat) (text : list N) (i : nat) : res (list nat) :=
  if (N.of_nat i <=? wsub (N.of_nat (length text)) (N.of_nat m))%N then
    match fuel with
    | O => Fuel
    | S fuel =>
        do pos <- sunday_pos pats text i 0;
        do r <- (if i + m =? length text then Ok [] else
                 do c <- lget text (i + m); do d1 <- lget td1 (N.to_nat c); do d2 <- shift pos;
                 sunday_loop fuel m pats td1 shift text (i + Nat.max d1 d2));
        Ok (if pos =? m then i :: r else r)
    end
  else Ok [].
(** PatternMatching.hpp:297-316 *)
Definition match_qs (text key : list N) : res (list nat) :=
  do pats <- sunday_make key; do td1 <- qs_make key;
  sunday_loop (S (length text)) (length key) pats td1 (fun _ => Ok 0) text 0.

(** PatternMatching.hpp:329-339: do the first [cnt] patterns agree with the key shifted by [lshift] *)
Fixpoint shift_fits (key : list N) (pats : list (nat * N)) (lshift cnt : nat) : res bool :=
  match cnt with
  | O => Ok true
  | S ppos =>
      do pat <- lget pats ppos;
      if fst pat <? lshift then shift_fits key pats lshift ppos else
      do k <- lget key (fst pat - lshift);
      if same_char (snd pat) k then shift_fits key pats lshift ppos else Ok false
  end.
(** PatternMatching.hpp:327-342 *)
Fixpoint match_shift (fuel : nat) (key : list N) (pats : list (nat * N)) (pos lshift : nat) : res nat :=
  if lshift <? length key then
    match fuel with
    | O => Fuel
    | S fuel => do b <- shift_fits key pats lshift pos; if b then Ok lshift else match_shift fuel key pats pos (S lshift)
    end
  else Ok lshift.
(** PatternMatching.hpp:351-358 *)
Fixpoint improve_shift (fuel : nat) (key : list N) (pats : list (nat * N)) (pos lshift : nat) : res nat :=
  if lshift <? length key then
    match fuel with
    | O => Fuel
    | S fuel =>
        do pat <- lget pats pos;
        if fst pat <? lshift then Ok lshift else
        do k <- lget key (fst pat - lshift);
        if negb (same_char (snd pat) k) then Ok lshift else
        do l <- match_shift (S (length key)) key pats pos (S lshift);
        improve_shift fuel key pats pos l
    end
  else Ok lshift.
(** PatternMatching.hpp:344-360 *)
Definition ms_make (key : list N) (pats : list (nat * N)) : res (list nat) :=
  do td2 <- lset (repeat 0 (length key + 1)) 0 1;
  do td2 <- foldM (fun td2 pos => do l <- lget td2 (pos - 1); do l <- match_shift (S (length key)) key pats pos l; lset td2 pos l) (seq 1 (length key)) td2;
  foldM (fun td2 pos => do l <- lget td2 pos; do l <- improve_shift (S (length key)) key pats pos l; lset td2 pos l) (seq 0 (length pats)) td2.
(** PatternMatching.hpp:325-388 *)
Definition match_ms (text key : list N) : res (list nat) :=
  do pats <- sunday_make key; do td1 <- qs_make key; do td2 <- ms_make key pats;
  sunday_loop (S (length text)) (length key) pats td1 (lget td2) text 0.
