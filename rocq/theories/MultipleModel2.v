(** Model of BlockReference::set_at<T> of MultipleVector.hpp for an integer type T other than id_type. *)
From Coq Require Import List NArith ZArith Arith Bool.
From Verif Require Import Base MultipleModel.
Import ListNotations.
Local Open Scope nat_scope.

(** value >> k where value has a signed or unsigned type of [t] bytes: it is promoted to int, so the shift is defined for
    less than 32 bits, or the bits of the type if it is wider. A negative value is shifted arithmetically *)
Definition shr_t (t : nat) (x : Z) (k : nat) : res Z := if k <? Nat.max 32 (8 * t) then Ok (Z.shiftr x (Z.of_nat k)) else UB.
(** MultipleVector.hpp:110-118: static_cast<uint8_t>(value >> (i * 8)) for i < width *)
Definition mv_write_t (t : nat) (bytes : list N) (offset width : nat) (value : Z) : res (list N) :=
  foldM (fun bs i => do x <- shr_t t value (i * 8); lset bs (offset + i) (Z.to_N (x mod 256)%Z)) (seq 0 width) bytes.
(** MultipleVector.hpp:59-62 with 261-263: block(i).set_at<T>(e, value), sizeof(T) = [t] *)
Definition mv_block_set_t (t : nat) (m : multiple) (i e : nat) (value : Z) : res multiple :=
  do p <- mv_block m i; do el <- lget (mv_table m) e;
  do bs <- mv_write_t t (mv_bytes m) (p + fst el) (snd el) value; Ok (MV (mv_table m) bs).
