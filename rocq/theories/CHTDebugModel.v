(** CHT.hpp in a build with assertions on (NDEBUG not defined): the functions of CHTModel.v with the asserts of CHT.hpp and of FitVector.hpp.
    [Throw] stands for a failed assertion, which aborts the program. An assertion precedes the access it guards. *)
From Coq Require Import List NArith ZArith Arith Bool.
From Verif Require Import Base Spec4 Spec8 BitUtilModel FitVectorModel HashModel FoDebugModel CHTModel.
Import ListNotations.
Local Open Scope nat_scope.

(** FitVector.hpp:87-89 with the assertions of 174 and 179 *)
Definition fv_get_d (v : fitvec) (i : nat) : res N := do _ <- assert_that (i <? fv_size v); fv_get v i.
Definition fv_set_d (v : fitvec) (i : nat) (x : N) : res fitvec := do _ <- assert_that (i <? fv_size v); fv_set v i x.
(** FitVector.hpp:54-58 with the assertion of bit_util.hpp:34 *)
Definition fv_sized_d (w n : nat) : res fitvec := do _ <- assert_that (w <=? 64); Ok (fv_sized w n).
(** 64 - bit_util::clz(x): an int, compared as unsigned; clz is at most 64 *)
Definition bits_of (x : N) : N := wsub 64 (clz64 x).

Section Params.
Variables (VB L : nat).

(** CHT.hpp:50-63 with the assertion of line 59; values_ is built before the body runs *)
Definition cht_make_d (key_bits bucket : nat) : res cht :=
  let bb := N.to_nat (ctz64 (N.of_nat bucket)) in
  do vs <- fv_sized_d VB bucket;
  do _ <- assert_that (popcnt64 (N.of_nat bucket) =? 1)%N;
  do arr <- fv_sized_d (key_bits - bb + kFlagBits) bucket;
  Ok (CHT key_bits bucket bb (bucket * L / 100) (bucket * (L - 1) / 400 + 1) arr vs (key_bits - bb) 0 0).
(** CHT.hpp:65-69 *)
Definition cht_set_value_width_d (t : cht) (w : nat) : res cht := do t' <- cht_set_value_width VB t w; do _ <- fv_sized_d w (ch_bucket t); Ok t'.

(** CHT.hpp:75-79 *)
Fixpoint head_back_d (fuel : nat) (t : cht) (i cnt : nat) : res (nat * nat) :=
  match fuel with
  | O => Fuel
  | S fuel =>
      let i := cht_pred t i in
      do w <- fv_get_d (ch_arr t) i;
      let cnt := if is_occupied w then S cnt else cnt in
      if is_shifted w then head_back_d fuel t i cnt else Ok (i, cnt)
  end.
(** CHT.hpp:80-84 *)
Fixpoint head_forward_d (fuel : nat) (t : cht) (i cnt : nat) : res nat :=
  match cnt with
  | O => Ok i
  | S cnt' =>
      match fuel with
      | O => Fuel
      | S fuel =>
          let i := cht_succ t i in
          do w <- fv_get_d (ch_arr t) i;
          head_forward_d fuel t i (if is_continuation w then cnt else cnt')
      end
  end.
(** CHT.hpp:71-86 *)
Definition to_cluster_head_d (t : cht) (i : nat) : res nat :=
  do w <- fv_get_d (ch_arr t) i;
  if is_shifted w then
    do r <- head_back_d (S (ch_bucket t)) t i 0; head_forward_d (2 * ch_bucket t) t (fst r) (snd r)
  else Ok i.
(** CHT.hpp:97-102, 123-133, 183-192 *)
Fixpoint find_quotient_d (fuel : nat) (t : cht) (quo : N) (i : nat) : res (nat + nat) :=
  match fuel with
  | O => Fuel
  | S fuel =>
      do w <- fv_get_d (ch_arr t) i;
      do q <- quotient t w;
      if (q =? quo)%N then Ok (inl i) else
      let i := cht_succ t i in
      do w <- fv_get_d (ch_arr t) i;
      if is_continuation w then find_quotient_d fuel t quo i else Ok (inr i)
  end.
(** CHT.hpp:88-104 with the assertion of line 89 *)
Definition cht_get_d (t : cht) (key : N) : res (option N) :=
  do _ <- assert_that (bits_of key <=? N.of_nat (ch_key_bits t))%N;
  do qi <- cht_locate t key;
  let '(quo, i) := qi in
  do w <- fv_get_d (ch_arr t) i;
  if negb (is_occupied w) then Ok None else
  do i <- to_cluster_head_d t i;
  do r <- find_quotient_d (S (ch_bucket t)) t quo i;
  match r with inl i => do v <- fv_get_d (ch_values t) i; Ok (Some v) | inr _ => Ok None end.

Definition put_word_d (t : cht) (i : nat) (w : N) : res cht := do a <- fv_set_d (ch_arr t) i w; Ok (with_arr t a).
Definition put_value_d (t : cht) (i : nat) (v : N) : res cht := do a <- fv_set_d (ch_values t) i v; Ok (with_values t a).
(** CHT.hpp:137-139 *)
Fixpoint find_null_d (fuel : nat) (t : cht) (j : nat) : res nat :=
  match fuel with
  | O => Fuel
  | S fuel => let j := cht_succ t j in do w <- fv_get_d (ch_arr t) j; if is_null w then Ok j else find_null_d fuel t j
  end.
(** CHT.hpp:140-150 with the assertion of line 150 *)
Fixpoint shift_slots_d (fuel : nat) (t : cht) (i j : nat) : res cht :=
  match fuel with
  | O => Fuel
  | S fuel =>
      let pj := cht_pred t j in
      do wj <- fv_get_d (ch_arr t) j;
      do wp <- fv_get_d (ch_arr t) pj;
      do m <- quo_mask t;
      do t <- put_word_d t j (N.lor (N.lor (N.land wj (N.lor kOccupiedMask kDeletedMask)) (N.land wp (N.lor m kContinuationMask))) kShiftedMask);
      do v <- fv_get_d (ch_values t) pj;
      do t <- put_value_d t j v;
      let j := pj in
      if j =? i then do _ <- assert_that (j =? i); Ok t else shift_slots_d fuel t i j
  end.
(** CHT.hpp:122-134 *)
Definition cht_overwrite_d (t : cht) (i : nat) (value : N) : res cht :=
  do w <- fv_get_d (ch_arr t) i;
  do t <- (if is_deleted w then do t <- put_word_d t i (N.land w (wnot kDeletedMask)); Ok (with_counts t (size_up (ch_size t)) (ch_used t)) else Ok t);
  put_value_d t i value.
(** CHT.hpp:135-169 *)
Definition cht_insert_at_d (t : cht) (quo : N) (initial_i i : nat) (value : N) : res cht :=
  do w <- fv_get_d (ch_arr t) i;
  do t <- (if is_null w then Ok t
           else do j <- find_null_d (S (ch_bucket t)) t i; shift_slots_d (S (ch_bucket t)) t i j);
  do w0 <- fv_get_d (ch_arr t) initial_i;
  do q <- shl64 quo 4;
  do t <- (if negb (is_occupied w0) then
             do t <- put_word_d t initial_i (N.lor w0 kOccupiedMask);
             do w <- fv_get_d (ch_arr t) i;
             put_word_d t i (N.lor (N.lor (N.land w kOccupiedMask) q) (if i =? initial_i then 0%N else kShiftedMask))
           else
             do w <- fv_get_d (ch_arr t) i;
             put_word_d t i (N.lor (N.lor (N.lor (N.land w kOccupiedMask) q) kContinuationMask) kShiftedMask));
  put_value_d (with_counts t (size_up (ch_size t)) (S (ch_used t))) i value.
(** CHT.hpp:118-170 *)
Definition cht_insert_d (t : cht) (key value : N) : res cht :=
  do qi <- cht_locate t key;
  let '(quo, initial_i) := qi in
  do i <- to_cluster_head_d t initial_i;
  do w <- fv_get_d (ch_arr t) initial_i;
  do r <- (if is_occupied w then find_quotient_d (S (ch_bucket t)) t quo i else Ok (inr i));
  match r with inl i => cht_overwrite_d t i value | inr i => cht_insert_at_d t quo initial_i i value end.

Section Resize.
Variable set : cht -> N -> N -> res cht.
(** CHT.hpp:242-244 *)
Fixpoint skip_to_cluster_d (fuel : nat) (t : cht) (i : nat) : res nat :=
  match fuel with
  | O => Fuel
  | S fuel => do w <- fv_get_d (ch_arr t) i; if is_occupied w && negb (is_shifted w) then Ok i else skip_to_cluster_d fuel t (cht_succ t i)
  end.
(** CHT.hpp:247-263 with the assertion of line 252 *)
Fixpoint move_cluster_d (fuel : nat) (t next : cht) (i cnt : nat) (qs : list nat) (f : option nat) : res (cht * nat * nat) :=
  match fuel with
  | O => Fuel
  | S fuel =>
      do w <- fv_get_d (ch_arr t) i;
      let qs := if is_occupied w then qs ++ [i] else qs in
      do qf <- (if is_continuation w then Ok (qs, f) else match qs with [] => Throw | x :: qs => Ok (qs, Some x) end);
      let '(qs, f) := qf in
      do next <- (if is_deleted w then Ok next else
                  match f with
                  | None => UB
                  | Some f =>
                      do q <- quotient t w;
                      do x <- shl64 q (N.of_nat (ch_bucket_bits t));
                      do k <- sm_ihash (N.of_nat (ch_key_bits t)) (N.lor x (N.of_nat f));
                      do v <- fv_get_d (ch_values t) i;
                      set next k v
                  end);
      let i := cht_succ t i in
      do w <- fv_get_d (ch_arr t) i;
      if is_shifted w then move_cluster_d fuel t next i (S cnt) qs f else Ok (next, i, S cnt)
  end.
(** CHT.hpp:241-264 *)
Fixpoint move_all_d (fuel : nat) (t next : cht) (i cnt : nat) : res cht :=
  if cnt <? ch_used t then
    match fuel with
    | O => Fuel
    | S fuel =>
        do i <- skip_to_cluster_d (S (ch_bucket t)) t i;
        do r <- move_cluster_d (S (ch_bucket t)) t next i cnt [] None;
        let '(next, i, cnt) := r in move_all_d fuel t next i cnt
    end
  else Ok next.
(** CHT.hpp:235-266 *)
Definition cht_resize_d (t : cht) (bucket : nat) : res cht :=
  do next <- cht_make_d (ch_key_bits t) bucket;
  do next <- (if VB =? 0 then cht_set_value_width_d next (fv_width (ch_values t)) else Ok next);
  move_all_d (S (ch_bucket t)) t next 0 0.
(** CHT.hpp:223-229 *)
Definition cht_reserve_with_d (t : cht) (n : nat) : res cht :=
  if n <=? ch_size t then Ok t else
  let need := wrap64 (wrap64 (N.of_nat n * 99) / N.of_nat L + 1) in
  let bits := wsub 64 (clz64 (wsub need 1)) in
  do b <- shl64 1 bits;
  cht_resize_d t (N.to_nat b).
End Resize.

(** CHT.hpp:110-170 with the assertions of lines 111 and 112 *)
Fixpoint cht_set_fuel_d (fuel : nat) (t : cht) (key value : N) : res cht :=
  match fuel with
  | O => Fuel
  | S fuel =>
      do _ <- assert_that (bits_of key <=? N.of_nat (ch_key_bits t))%N;
      do _ <- assert_that (bits_of value <=? N.of_nat (fv_width (ch_values t)))%N;
      do t <- (if cht_is_filled t then cht_reserve_with_d (cht_set_fuel_d fuel) t (size_twice (ch_size t)) else Ok t);
      cht_insert_d t key value
  end.
Definition cht_set_d : cht -> N -> N -> res cht := cht_set_fuel_d 4.
Definition cht_reserve_d : cht -> nat -> res cht := cht_reserve_with_d cht_set_d.

(** CHT.hpp:176-193 *)
Definition cht_erase_here_d (t : cht) (key : N) : res cht :=
  do h <- sm_hash (N.of_nat (ch_key_bits t)) key;
  if ch_bucket_bits t =? 0 then UB else
  let quo := (h / N.of_nat (ch_bucket_bits t))%N in
  do m <- shl64 1 (N.of_nat (ch_bucket_bits t));
  let initial_i := N.to_nat (N.land h (wsub m 1)) in
  do w <- fv_get_d (ch_arr t) initial_i;
  if negb (is_occupied w) then Ok t else
  do i <- to_cluster_head_d t initial_i;
  do r <- find_quotient_d (S (ch_bucket t)) t quo i;
  match r with
  | inl i => do w <- fv_get_d (ch_arr t) i;
             if is_deleted w then Ok t
             else do t <- put_word_d t i (N.lor w kDeletedMask); Ok (with_counts t (size_down (ch_size t)) (ch_used t))
  | inr _ => Ok t
  end.
(** CHT.hpp:172-193 *)
Definition cht_erase_d (t : cht) (key : N) : res cht :=
  do t <- (if ch_size t =? ch_min t then cht_reserve_d t (size_twice (ch_size t)) else Ok t);
  cht_erase_here_d t key.

Definition tab_step_d (t : cht) (o : tab_op) : res cht :=
  match o with TabSet k v => cht_set_d t k v | TabReserve n => cht_reserve_d t n | TabErase k => cht_erase_d t k end.
Definition cht_start_d (key_bits bucket w : nat) : res cht :=
  do t <- cht_make_d key_bits bucket; if VB =? 0 then cht_set_value_width_d t w else Ok t.
Definition tab_run_d (key_bits bucket w : nat) (ops : list tab_op) : res cht := do t <- cht_start_d key_bits bucket w; foldM tab_step_d ops t.
End Params.
