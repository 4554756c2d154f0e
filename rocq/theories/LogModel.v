(** Model of log.hpp: ShowAsBinary. A value of an integer type is the number it stands for. *)
From Coq Require Import List NArith ZArith Ascii Bool.
From Verif Require Import Base.
Import ListNotations.
Local Open Scope Z_scope.

(** the width of the type after the integral promotion: types below 32 bits become int *)
Definition promoted (w : Z) : Z := if w <? 32 then 32 else w.
(** [value >> i & 1] for a value of a type of [w] bits; a count of the promoted width or more is undefined, a negative value is shifted arithmetically *)
Definition sab_digit (w v i : Z) : res Z := if i <? promoted w then Ok (Z.land (Z.shiftr v i) 1) else UB.
(** log.hpp:20-24; [n] is i + 1; the characters written *)
Fixpoint sab_loop (w v : Z) (n : nat) : res (list ascii) :=
  match n with
  | O => Ok []
  | S n =>
      let i := Z.of_nat n in
      do d <- sab_digit w v i;
      let out := (if d =? 0 then "0"%char else "1"%char) :: (if i mod 8 =? 0 then [" "%char] else []) in
      do rest <- sab_loop w v n;
      Ok (out ++ rest)
  end.
(** the conversion of a size_t to int: modulo 2^32 *)
Definition to_int (x : Z) : Z := let y := x mod 2 ^ 32 in if y <? 2 ^ 31 then y else y - 2 ^ 32.
(** log.hpp:16-26 *)
Definition show_as_binary (w v size : Z) : res (list ascii) :=
  let i := to_int ((size * 8 mod 2 ^ 64 - 1) mod 2 ^ 64) in
  do out <- sab_loop w v (Z.to_nat (i + 1));
  Ok (out ++ [ascii_of_nat 10]).
