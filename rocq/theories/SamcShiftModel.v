(** Model of string_util/Samc.hpp: shifts_of_conflicts_, a member function which no other function calls. *)
From Coq Require Import NArith ZArith.
From Verif Require Import Base BitUtilModel.
Local Open Scope N_scope.

(** Samc.hpp:262-272 without the assertion; the sum is an int converted to size_t *)
Definition soc_body (fields mask conflicts : N) : res N :=
  let conflict_front := ctz64 conflicts in
  do f <- shr64 fields conflict_front;
  let field_continuouses := ctz64 (wnot f) in
  do m <- shl64 mask (wsub (wsub 64 1) conflict_front);
  let mask_followings := (Z.of_N (clz64 (wnot m)) - 1)%Z in
  Ok (Z.to_N ((Z.of_N field_continuouses + mask_followings) mod 2 ^ 64)%Z).
(** Samc.hpp:266, without NDEBUG *)
Definition soc_debug (fields mask conflicts : N) : res N :=
  if N.land fields mask =? conflicts then soc_body fields mask conflicts else Throw.
