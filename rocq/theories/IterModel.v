(** Model of IndexConstIterator<DacVector> (DacVector.hpp:22-104) and of DacVector::begin, end, front, back.
    The iterator holds a reference to its vector and pos_, a size_t (64 bits); the reference is passed separately here. *)
From Coq Require Import List NArith ZArith Arith Bool.
From Verif Require Import Base IterSpec DacModel.
Import ListNotations.
Local Open Scope nat_scope.

(** the conversion of a size_t to long long (DacVector.hpp:82, 84; modular on every supported compiler) *)
Definition to_ll (x : N) : Z := if (x <? 2 ^ 63)%N then Z.of_N x else (Z.of_N x - 2 ^ 64)%Z.

(** DacVector.hpp:35-37 *)
Definition it_deref (d : dac) (pos : N) : res N := dac_get d (N.to_nat pos).
(** DacVector.hpp:39-42; the postfix form at 44-48 leaves the same iterator behind and returns the old one *)
Definition it_inc (pos : N) : N := wrap64 (pos + 1).
(** DacVector.hpp:50-53; the postfix form at 55-59 likewise *)
Definition it_dec (pos : N) : N := wrap64 (pos + (2 ^ 64 - 1)).
(** DacVector.hpp:61-64 (the distance is converted to size_t, the sum is taken modulo 2^64) *)
Definition it_add (pos : N) (distance : Z) : N := Z.to_N ((Z.of_N pos + distance) mod 2 ^ 64)%Z.
(** DacVector.hpp:66-68 (negating the least long long overflows) *)
Definition it_sub (pos : N) (distance : Z) : res N := if (distance =? - 2 ^ 63)%Z then UB else Ok (it_add pos (- distance)).
(** DacVector.hpp:70-74, 82 *)
Definition it_plus (pos : N) (distance : Z) : N := it_add pos distance.
(** DacVector.hpp:76-80 *)
Definition it_minus (pos : N) (distance : Z) : res N := it_sub pos distance.
(** DacVector.hpp:84 *)
Definition it_diff (x y : N) : Z := to_ll (wrap64 (x + (2 ^ 64 - y))).
(** DacVector.hpp:86 *)
Definition it_index (d : dac) (pos p : N) : res N := it_deref d (it_plus pos (to_ll p)).
(** DacVector.hpp:88-98 *)
Definition it_eq (x y : N) : bool := (x =? y)%N.
Definition it_ne (x y : N) : bool := negb (it_eq x y).
Definition it_lt (x y : N) : bool := (x <? y)%N.
Definition it_gt (x y : N) : bool := it_lt y x.
Definition it_le (x y : N) : bool := negb (it_gt x y).
Definition it_ge (x y : N) : bool := negb (it_lt x y).

(** DacVector.hpp:159, 161, 163, 165 *)
Definition dac_begin : N := 0%N.
Definition dac_end (d : dac) : res N := do s <- dac_size d; Ok (N.of_nat s).
Definition dac_front (d : dac) : res N := dac_get d 0.
Definition dac_back (d : dac) : res N :=
  do s <- dac_size d; dac_get d (N.to_nat (wrap64 (N.of_nat s + (2 ^ 64 - 1)))).

(** for (auto x : d) out.push_back(x) over begin()/end(), DacVector.hpp:159-161 *)
Fixpoint it_loop (fuel : nat) (d : dac) (pos stop : N) (out : list N) : res (list N) :=
  if it_ne pos stop then
    match fuel with
    | 0 => Fuel
    | S fuel => do x <- it_deref d pos; it_loop fuel d (it_inc pos) stop (out ++ [x])
    end
  else Ok out.
Definition dac_collect (fuel : nat) (d : dac) : res (list N) := do e <- dac_end d; it_loop fuel d dac_begin e [].

(** moving an iterator by a sequence of operations (DacVector.hpp:39-68) *)
Definition it_step (pos : N) (m : it_move) : res N :=
  match m with
  | Inc => Ok (it_inc pos)
  | Dec => Ok (it_dec pos)
  | Add k => Ok (it_add pos k)
  | Sub k => it_sub pos k
  end.
Definition it_walk (pos : N) (ms : list it_move) : res N := foldM it_step ms pos.
