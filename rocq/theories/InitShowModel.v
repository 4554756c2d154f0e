(** Model of the debug output of _InitializableArray. *)
From Coq Require Import List NArith Arith.
From Verif Require Import Base InitArrayModel.
Import ListNotations.
Local Open Scope nat_scope.

(** for (int i = 0; i < n; i++) with n of type size_t (InitializableArray.hpp:164, 169; CHT.hpp:211): past INT_MAX the increment is undefined *)
Definition for_int {A} (n : nat) (body : nat -> res A) : res (list A) :=
  do l <- mapM body (seq 0 n); if (N.of_nat n <? 2 ^ 31)%N then Ok l else UB.
(** InitializableArray.hpp:162-172: the elements, b_, and the cells *)
Definition ia_print (next : N -> res nat) (size : nat) (s : inplace) : res (list N * nat * list N) :=
  do e <- for_int (kActualSize size) (ia_get next size s);
  do a <- for_int (kActualSize size) (lget (ia_a s));
  Ok (e, ia_b s, a).
