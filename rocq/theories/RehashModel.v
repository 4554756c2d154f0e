(** How many elements a CHT moves: CHTModel's _resize, reserve and set with the calls of set by _resize counted. The counter is
    no part of the code. *)
From Coq Require Import List NArith ZArith Arith Bool.
From Verif Require Import Base Spec4 Spec8 BitUtilModel FitVectorModel HashModel CHTModel.
Import ListNotations.
Local Open Scope nat_scope.

Section Params.
Variables (VB L : nat).
Section Resize.
(** set, together with the number of calls of set made by the _resize inside it *)
Variable set : cht -> N -> N -> res (nat * cht).
(** CHT.hpp:247-263; the call of line 259 counts as one, and what it moves itself is added *)
Fixpoint move_cluster_count (fuel : nat) (t next : cht) (i cnt : nat) (qs : list nat) (f : option nat) (k : nat) : res (nat * (cht * nat * nat)) :=
  match fuel with
  | O => Fuel
  | S fuel =>
      do w <- fv_get (ch_arr t) i;
      let qs := if is_occupied w then qs ++ [i] else qs in
      do qf <- (if is_continuation w then Ok (qs, f) else match qs with [] => UB | x :: qs => Ok (qs, Some x) end);
      let '(qs, f) := qf in
      do kn <- (if is_deleted w then Ok (k, next) else
                match f with
                | None => UB
                | Some f =>
                    do q <- quotient t w;
                    do x <- shl64 q (N.of_nat (ch_bucket_bits t));
                    do key <- sm_ihash (N.of_nat (ch_key_bits t)) (N.lor x (N.of_nat f));
                    do v <- fv_get (ch_values t) i;
                    do r <- set next key v; Ok (k + S (fst r), snd r)
                end);
      let '(k, next) := kn in
      let i := cht_succ t i in
      do w <- fv_get (ch_arr t) i;
      if is_shifted w then move_cluster_count fuel t next i (S cnt) qs f k else Ok (k, (next, i, S cnt))
  end.
(** CHT.hpp:241-264 *)
Fixpoint move_all_count (fuel : nat) (t next : cht) (i cnt k : nat) : res (nat * cht) :=
  if cnt <? ch_used t then
    match fuel with
    | O => Fuel
    | S fuel =>
        do i <- skip_to_cluster (S (ch_bucket t)) t i;
        do r <- move_cluster_count (S (ch_bucket t)) t next i cnt [] None k;
        let '(k, (next, i, cnt)) := r in move_all_count fuel t next i cnt k
    end
  else Ok (k, next).
(** CHT.hpp:235-266 *)
Definition cht_resize_count (t : cht) (bucket : nat) : res (nat * cht) :=
  let next := cht_make VB L (ch_key_bits t) bucket in
  do next <- (if VB =? 0 then cht_set_value_width VB next (fv_width (ch_values t)) else Ok next);
  move_all_count (S (ch_bucket t)) t next 0 0 0.
(** CHT.hpp:223-229 *)
Definition cht_reserve_with_count (t : cht) (n : nat) : res (nat * cht) :=
  if n <=? ch_size t then Ok (0, t) else
  let need := wrap64 (wrap64 (N.of_nat n * 99) / N.of_nat L + 1) in
  let bits := wsub 64 (clz64 (wsub need 1)) in
  do b <- shl64 1 bits;
  cht_resize_count t (N.to_nat b).
End Resize.
(** CHT.hpp:110-170 *)
Fixpoint cht_set_fuel_count (fuel : nat) (t : cht) (key value : N) : res (nat * cht) :=
  match fuel with
  | O => Fuel
  | S fuel =>
      do r <- (if cht_is_filled t then cht_reserve_with_count (cht_set_fuel_count fuel) t (size_twice (ch_size t)) else Ok (0, t));
      do t <- cht_insert (snd r) key value; Ok (fst r, t)
  end.
Definition cht_set_count : cht -> N -> N -> res (nat * cht) := cht_set_fuel_count 4.
Definition cht_reserve_count : cht -> nat -> res (nat * cht) := cht_reserve_with_count cht_set_count.
(** a history; the elements moved by the calls of set and those moved by the calls of reserve *)
Definition cht_step_count (st : nat * nat * cht) (o : map_op) : res (nat * nat * cht) :=
  let '(a, r, t) := st in
  match o with
  | MapSet k v => do x <- cht_set_count t k v; Ok (a + fst x, r, snd x)
  | MapReserve n => do x <- cht_reserve_count t n; Ok (a, r + fst x, snd x)
  end.
Definition cht_run_count (key_bits bucket w : nat) (ops : list map_op) : res (nat * nat * cht) :=
  do t <- cht_start VB L key_bits bucket w; foldM cht_step_count ops (0, 0, t).
End Params.
