(** The Fibonacci numbers. *)
From Coq Require Import Arith.

Fixpoint fib (n : nat) : nat := match n with 0 => 0 | S k => match k with 0 => 1 | S j => fib k + fib j end end.
