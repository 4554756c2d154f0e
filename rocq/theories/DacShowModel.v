(** Model of DacVector::ShowStatus. *)
From Coq Require Import List NArith ZArith Arith.
From Verif Require Import Base BitVectorModel FitVectorModel SuccinctModel DacModel StreamModel.
Import ListNotations.
Local Open Scope nat_scope.

(** The numbers that ShowStatus prints, in order. The quotient is kept as dividend and divisor: its float value is not modelled
    (a division by zero prints inf or nan). The product by 8 is not wrapped. *)
Record report := Report { rp_count : nat; rp_bytes : nat; rp_ratio : nat * nat; rp_bits : Z; rp_flow : Z; rp_units : list nat }.

(** int += size_t: the sum is taken modulo 2^64 and cut to 32 bits *)
Definition int_add (acc : Z) (n : nat) : Z :=
  let s := ((acc + Z.of_nat n) mod 2 ^ 64)%Z in let r := (s mod 2 ^ 32)%Z in if (r <? 2 ^ 31)%Z then r else (r - 2 ^ 32)%Z.

(** DacVector.hpp:225-244. The first loop runs for i = 0 whatever the number of layers. *)
Definition dac_show (d : dac) : res report :=
  match dac_num d with
  | None => UB
  | Some n =>
      do sz <- dac_size d;
      do bytes <- dac_size_in_bytes d;
      do bits <- foldM (fun s i => do p <- lget (dac_paths d) i; Ok (int_add s (sb_size_in_bytes false p))) (seq 0 (Nat.max 1 (n - 1))) 0%Z;
      do flow <- foldM (fun s i => do L <- lget (dac_layers d) i; Ok (int_add s (fv_size_in_bytes L))) (seq 0 n) 0%Z;
      do us <- mapM (lget (dac_units d)) (seq 0 n);
      Ok (Report sz bytes (bytes * 8, sz) bits flow us)
  end.
