(** Model of InitializableArray.hpp. *)
From Coq Require Import List NArith ZArith Arith Bool.
From Verif Require Import Base Spec3.
Import ListNotations.
Local Open Scope nat_scope.

(** ** InitializableArrayFolklore<T> (InitializableArray.hpp:12-62), for any T *)
Section Folklore.
Context {A : Type}.
(** InitializableArray.hpp:17-19 *)
Record folklore := Folk { fk_init : A; fk_fv : list (nat * A); fk_t : list nat }.
(** InitializableArray.hpp:22; vector(size) value-initialises its pairs, [zero] is T() *)
Definition fk_make (zero : A) (size : nat) (val : A) : folklore := Folk val (repeat (0, zero) size) [].
(** InitializableArray.hpp:57-60 *)
Definition fk_is_chained (s : folklore) (i : nat) : res bool :=
  do p <- lget (fk_fv s) i;
  if fst p <? length (fk_t s) then do x <- lget (fk_t s) (fst p); Ok (x =? i) else Ok false.
(** InitializableArray.hpp:32-34 *)
Definition fk_get (s : folklore) (i : nat) : res A :=
  do c <- fk_is_chained s i; if (c : bool) then do p <- lget (fk_fv s) i; Ok (snd p) else Ok (fk_init s).
(** InitializableArray.hpp:36-42 *)
Definition fk_set (s : folklore) (i : nat) (val : A) : res folklore :=
  do c <- fk_is_chained s i;
  do s <- (if (c : bool) then Ok s
           else do p <- lget (fk_fv s) i; do fv <- lset (fk_fv s) i (length (fk_t s), snd p); Ok (Folk (fk_init s) fv (fk_t s ++ [i])));
  do p <- lget (fk_fv s) i; do fv <- lset (fk_fv s) i (fst p, val); Ok (Folk (fk_init s) fv (fk_t s)).
(** InitializableArray.hpp:45-52 *)
Definition fk_fill (s : folklore) (v : A) : folklore := Folk v (fk_fv s) [].
(** InitializableArray.hpp:54 *)
Definition fk_size (s : folklore) : nat := length (fk_fv s).
(** InitializableArray.hpp:25-30 *)
Definition fk_of_list (zero : A) (l : list A) : res folklore :=
  foldM (fun s p => fk_set s (fst p) (snd p)) (combine (seq 0 (length l)) l) (fk_make zero (length l) zero).
Definition fk_step (s : folklore) (o : ia_op A) : res folklore :=
  match o with IAFill v => Ok (fk_fill s v) | IASet i v => fk_set s i v end.
Definition fk_run (zero : A) (size : nat) (val : A) (ops : list (ia_op A)) : res folklore := foldM fk_step ops (fk_make zero size val).
End Folklore.
Arguments folklore : clear implicits.

(** ** _InitializableArray<T, Size, true> (InitializableArray.hpp:78-300)
    A value of type T is its object representation, a number below 2^w (w = 8 * sizeof(T)).
    [next] is the index denoted by [a_[i] + 1] when a_[i] has the given representation. *)
Section InPlace.
Variables (w : N) (next : N -> res nat) (size : nat).
(** InitializableArray.hpp:81-82 *)
Definition kActualSize : nat := size + size mod 2.
Definition kNoneBlock : nat := kActualSize / 2.
(** InitializableArray.hpp:86-88 *)
Record inplace := IA { ia_init : N; ia_b : nat; ia_a : list N }.
(** InitializableArray.hpp:91; a_ is not initialised: [mem] is what the memory held *)
Definition ia_make (mem : list N) (v : N) : inplace := IA v 0 mem.
(** InitializableArray.hpp:175-183 *)
Definition ia_to (s : inplace) (i : nat) : res N := lget (ia_a s) i.
Definition ia_put (s : inplace) (i : nat) (x : N) : res inplace := do a <- lset (ia_a s) i x; Ok (IA (ia_init s) (ia_b s) a).
Definition ia_set_to (s : inplace) (i b : nat) : res inplace := ia_put s i (wrap w (N.of_nat b)).
(** InitializableArray.hpp:185-192; [None] is kNoneBlock *)
Definition ia_chained_to (s : inplace) (b : nat) : res (option nat) :=
  do bki <- ia_to s (2 * b);
  if (bki <? N.of_nat kActualSize)%N && (bki mod 2 =? 0)%N then
    do t <- ia_to s (N.to_nat bki);
    let k := N.to_nat bki / 2 in
    if (t =? N.of_nat (2 * b))%N && (((b <? ia_b s) && (ia_b s <=? k)) || ((k <? ia_b s) && (ia_b s <=? b)))
    then Ok (Some k) else Ok None
  else Ok None.
(** InitializableArray.hpp:194-209 *)
Definition ia_make_chain (s : inplace) (bi bj : nat) : res inplace :=
  do s <- ia_set_to s (2 * bi) (2 * bj); ia_set_to s (2 * bj) (2 * bi).
Definition ia_break_chain (s : inplace) (b : nat) : res inplace :=
  do k <- ia_chained_to s b; match k with Some k => ia_set_to s (2 * k) (2 * k) | None => Ok s end.
Definition ia_init_block (s : inplace) (b : nat) : res inplace :=
  do s <- ia_put s (2 * b + 1) (ia_init s); ia_put s (2 * b) (ia_init s).
(** InitializableArray.hpp:211-224 *)
Definition ia_extend (s : inplace) : res (inplace * nat) :=
  do k <- ia_chained_to s (ia_b s);
  let s := IA (ia_init s) (S (ia_b s)) (ia_a s) in
  do sk <- (match k with
            | None => Ok (s, ia_b s - 1)
            | Some k => do x <- ia_to s (2 * k + 1); do s <- ia_put s (2 * (ia_b s - 1)) x; do s <- ia_break_chain s (ia_b s - 1); Ok (s, k)
            end);
  do s <- ia_init_block (fst sk) (snd sk); do s <- ia_break_chain s (snd sk); Ok (s, snd sk).
(** InitializableArray.hpp:93-105 *)
Definition ia_get (s : inplace) (i : nat) : res N :=
  let b := i / 2 in
  do k <- ia_chained_to s b;
  if i <? 2 * ia_b s then match k with Some _ => Ok (ia_init s) | None => ia_to s i end
  else match k with
       | Some _ => if i mod 2 =? 0 then do x <- ia_to s i; do j <- next x; ia_to s j else ia_to s i
       | None => Ok (ia_init s)
       end.
(** InitializableArray.hpp:110-113, 130-135 *)
Definition ia_write_uca (s : inplace) (i : nat) (val : N) : res inplace := do s <- ia_put s i val; ia_break_chain s (i / 2).
Definition ia_write_wca (s : inplace) (i k : nat) (val : N) : res inplace :=
  if i mod 2 =? 0 then ia_put s (2 * k + 1) val else ia_put s i val.
(** InitializableArray.hpp:107-149 *)
Definition ia_set (s : inplace) (i : nat) (val : N) : res inplace :=
  let b := i / 2 in
  do k <- ia_chained_to s b;
  if b <? ia_b s then
    match k with
    | None => ia_write_uca s i val
    | Some k =>
        do sj <- ia_extend s;
        let '(s, j) := sj in
        if b =? j then ia_write_uca s i val
        else do x <- ia_to s (2 * b); do s <- ia_put s (2 * j) x;
             do y <- ia_to s (2 * b + 1); do s <- ia_put s (2 * j + 1) y;
             do s <- ia_make_chain s j k; do s <- ia_init_block s b; ia_write_uca s i val
    end
  else
    match k with
    | Some k => ia_write_wca s i k val
    | None =>
        do sk <- ia_extend s;
        let '(s, k) := sk in
        if b =? k then ia_write_uca s i val
        else do s <- ia_init_block s b; do s <- ia_make_chain s k b; ia_write_wca s i k val
    end.
(** InitializableArray.hpp:151-158 *)
Definition ia_fill (s : inplace) (v : N) : inplace := IA v 0 (ia_a s).
Definition ia_step (s : inplace) (o : ia_op N) : res inplace :=
  match o with IAFill v => Ok (ia_fill s v) | IASet i v => ia_set s i v end.
Definition ia_run (mem : list N) (v : N) (ops : list (ia_op N)) : res inplace := foldM ia_step ops (ia_make mem v).
End InPlace.

(** [a_[i] + 1] as an index: for an unsigned T of w bits (promoted to int below 32 bits, wrapping otherwise), for a signed T
    (a negative index is undefined) *)
Definition next_unsigned (w : N) (x : N) : res nat := Ok (N.to_nat (if (w <? 32)%N then x + 1 else (x + 1) mod 2 ^ w)%N).
Definition next_signed (w : N) (x : N) : res nat := if (x <? 2 ^ (w - 1))%N then Ok (N.to_nat (x + 1)) else UB.
(** For T = float, when a_[i] is a positive number below 2^-24 (representation below 0x33800000) the sum rounds to 1.0f;
    larger values are not modelled *)
Definition next_float (x : N) : res nat := if (x <? 864026624)%N then Ok 1 else UB.
(** For T = double, a positive number below 2^-53 (representation below 0x3CA0000000000000) *)
Definition next_double (x : N) : res nat := if (x <? 4368491638549381120)%N then Ok 1 else UB.
(** InitializableArray.hpp:72-74: the alias selects the in-place variant; [digits] is numeric_limits<T>::digits *)
Definition in_place_case (digits : N) (size : nat) : Prop := (digits < 64)%N /\ (N.of_nat (kActualSize size) <= 2 ^ digits)%N.
