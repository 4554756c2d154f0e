(** Model of CHT.hpp with BijectiveHash = SplitMixHash. The template parameters ValueBits and MaxLoadFactorPercent are [VB] and [L].
    Sizes and indices are naturals; the products of line 55, 56 and 226 do not wrap for the sizes considered.
    Loops whose end depends on the table carry fuel; they make at most bucket() + 1 steps unless they run forever. *)
From Coq Require Import List NArith ZArith Arith Bool.
From Verif Require Import Base Spec4 Spec8 BitUtilModel FitVectorModel HashModel.
Import ListNotations.
Local Open Scope nat_scope.

(** CHT.hpp:19-24 *)
Definition kFlagBits : nat := 4.
Definition kOccupiedMask : N := 1%N.
Definition kContinuationMask : N := 2%N.
Definition kShiftedMask : N := 4%N.
Definition kDeletedMask : N := 8%N.

(** CHT.hpp:27-38; bucket_mask_ is 2^bucket_bits_ - 1, hasher_ is given by key_bits_ *)
Record cht := CHT { ch_key_bits : nat; ch_bucket : nat; ch_bucket_bits : nat; ch_max : nat; ch_min : nat;
  ch_arr : fitvec; ch_values : fitvec; ch_quo_bits : nat; ch_size : nat; ch_used : nat }.

(** CHT.hpp:40-44, on a word of arr_ *)
Definition is_occupied (w : N) : bool := negb (N.land w kOccupiedMask =? 0)%N.
Definition is_continuation (w : N) : bool := negb (N.land w kContinuationMask =? 0)%N.
Definition is_shifted (w : N) : bool := negb (N.land w kShiftedMask =? 0)%N.
Definition is_deleted (w : N) : bool := negb (N.land w kDeletedMask =? 0)%N.
Definition is_null (w : N) : bool := (w mod 16 =? 0)%N.
(** CHT.hpp:62; a shift by 64 or more is undefined *)
Definition quo_mask (t : cht) : res N := do m <- shl64 1 (N.of_nat (ch_quo_bits t)); shl64 (wsub m 1) 4.
(** CHT.hpp:46 *)
Definition quotient (t : cht) (w : N) : res N := do m <- quo_mask t; Ok (N.shiftr (N.land w m) 4).

(** size_ is a size_t: size_++ (CHT.hpp:127, 167), size_-- (187) and size()*2 (115, 174) wrap at 2^64 *)
Definition size_up (s : nat) : nat := N.to_nat (wrap64 (N.of_nat s + 1)).
Definition size_down (s : nat) : nat := N.to_nat (wsub (N.of_nat s) 1).
Definition size_twice (s : nat) : nat := N.to_nat (wrap64 (N.of_nat s * 2)).

Section Params.
Variables (VB L : nat).

(** CHT.hpp:50-63. (int)key_bits - (int)bucket_bits_, not below 0; the FitVectors are zero-filled *)
Definition cht_make (key_bits bucket : nat) : cht :=
  let bb := N.to_nat (ctz64 (N.of_nat bucket)) in
  CHT key_bits bucket bb (bucket * L / 100) (bucket * (L - 1) / 400 + 1)
      (fv_sized (key_bits - bb + kFlagBits) bucket) (fv_sized VB bucket) (key_bits - bb) 0 0.

(** CHT.hpp:65-69 *)
Definition cht_set_value_width (t : cht) (w : nat) : res cht :=
  if negb (VB =? 0) || negb (ch_size t =? 0) then Throw
  else Ok (CHT (ch_key_bits t) (ch_bucket t) (ch_bucket_bits t) (ch_max t) (ch_min t) (ch_arr t) (fv_sized w (ch_bucket t)) (ch_quo_bits t) (ch_size t) (ch_used t)).

(** CHT.hpp:195-207 *)
Definition cht_succ (t : cht) (i : nat) : nat := if i + 1 =? ch_bucket t then 0 else i + 1.
Definition cht_pred (t : cht) (i : nat) : nat := if i =? 0 then ch_bucket t - 1 else i - 1.

(** CHT.hpp:75-79; state (i, t) *)
Fixpoint head_back (fuel : nat) (t : cht) (i cnt : nat) : res (nat * nat) :=
  match fuel with
  | O => Fuel
  | S fuel =>
      let i := cht_pred t i in
      do w <- fv_get (ch_arr t) i;
      let cnt := if is_occupied w then S cnt else cnt in
      if is_shifted w then head_back fuel t i cnt else Ok (i, cnt)
  end.
(** CHT.hpp:80-84 *)
Fixpoint head_forward (fuel : nat) (t : cht) (i cnt : nat) : res nat :=
  match cnt with
  | O => Ok i
  | S cnt' =>
      match fuel with
      | O => Fuel
      | S fuel =>
          let i := cht_succ t i in
          do w <- fv_get (ch_arr t) i;
          head_forward fuel t i (if is_continuation w then cnt else cnt')
      end
  end.
(** CHT.hpp:71-86 *)
Definition to_cluster_head (t : cht) (i : nat) : res nat :=
  do w <- fv_get (ch_arr t) i;
  if is_shifted w then
    do r <- head_back (S (ch_bucket t)) t i 0; head_forward (2 * ch_bucket t) t (fst r) (snd r)
  else Ok i.

(** The search loop shared by get (97-102), set (123-133) and erase (183-192): [inl i] if the quotient was found in slot i,
    [inr i] if the run ended before slot i *)
Fixpoint find_quotient (fuel : nat) (t : cht) (quo : N) (i : nat) : res (nat + nat) :=
  match fuel with
  | O => Fuel
  | S fuel =>
      do w <- fv_get (ch_arr t) i;
      do q <- quotient t w;
      if (q =? quo)%N then Ok (inl i) else
      let i := cht_succ t i in
      do w <- fv_get (ch_arr t) i;
      if is_continuation w then find_quotient fuel t quo i else Ok (inr i)
  end.

(** CHT.hpp:91-93, 118-120: hash, quotient and home slot; bucket_mask_ of line 54 *)
Definition cht_locate (t : cht) (key : N) : res (N * nat) :=
  do h <- sm_hash (N.of_nat (ch_key_bits t)) key;
  do quo <- shr64 h (N.of_nat (ch_bucket_bits t));
  do m <- shl64 1 (N.of_nat (ch_bucket_bits t));
  Ok (quo, N.to_nat (N.land h (wsub m 1))).

(** CHT.hpp:88-104; [None] is {false, 0} *)
Definition cht_get (t : cht) (key : N) : res (option N) :=
  do qi <- cht_locate t key;
  let '(quo, i) := qi in
  do w <- fv_get (ch_arr t) i;
  if negb (is_occupied w) then Ok None else
  do i <- to_cluster_head t i;
  do r <- find_quotient (S (ch_bucket t)) t quo i;
  match r with inl i => do v <- fv_get (ch_values t) i; Ok (Some v) | inr _ => Ok None end.

(** CHT.hpp:106-108 *)
Definition cht_is_filled (t : cht) : bool := ch_used t =? ch_max t.

Definition with_arr (t : cht) (a : fitvec) : cht :=
  CHT (ch_key_bits t) (ch_bucket t) (ch_bucket_bits t) (ch_max t) (ch_min t) a (ch_values t) (ch_quo_bits t) (ch_size t) (ch_used t).
Definition with_values (t : cht) (v : fitvec) : cht :=
  CHT (ch_key_bits t) (ch_bucket t) (ch_bucket_bits t) (ch_max t) (ch_min t) (ch_arr t) v (ch_quo_bits t) (ch_size t) (ch_used t).
Definition with_counts (t : cht) (size used : nat) : cht :=
  CHT (ch_key_bits t) (ch_bucket t) (ch_bucket_bits t) (ch_max t) (ch_min t) (ch_arr t) (ch_values t) (ch_quo_bits t) size used.
Definition put_word (t : cht) (i : nat) (w : N) : res cht := do a <- fv_set (ch_arr t) i w; Ok (with_arr t a).
Definition put_value (t : cht) (i : nat) (v : N) : res cht := do a <- fv_set (ch_values t) i v; Ok (with_values t a).

(** CHT.hpp:137-139: the first null slot after [j] *)
Fixpoint find_null (fuel : nat) (t : cht) (j : nat) : res nat :=
  match fuel with
  | O => Fuel
  | S fuel => let j := cht_succ t j in do w <- fv_get (ch_arr t) j; if is_null w then Ok j else find_null fuel t j
  end.
(** CHT.hpp:140-149: move the slots from [i] to before [j] one slot on *)
Fixpoint shift_slots (fuel : nat) (t : cht) (i j : nat) : res cht :=
  match fuel with
  | O => Fuel
  | S fuel =>
      let pj := cht_pred t j in
      do wj <- fv_get (ch_arr t) j;
      do wp <- fv_get (ch_arr t) pj;
      do m <- quo_mask t;
      do t <- put_word t j (N.lor (N.lor (N.land wj (N.lor kOccupiedMask kDeletedMask)) (N.land wp (N.lor m kContinuationMask))) kShiftedMask);
      do v <- fv_get (ch_values t) pj;
      do t <- put_value t j v;
      if pj =? i then Ok t else shift_slots fuel t i pj
  end.

(** CHT.hpp:122-134: what happens to a key already present; [None]: not present, insert at slot [i] *)
Definition cht_overwrite (t : cht) (i : nat) (value : N) : res cht :=
  do w <- fv_get (ch_arr t) i;
  do t <- (if is_deleted w then do t <- put_word t i (N.land w (wnot kDeletedMask)); Ok (with_counts t (size_up (ch_size t)) (ch_used t)) else Ok t);
  put_value t i value.
(** CHT.hpp:135-169 *)
Definition cht_insert_at (t : cht) (quo : N) (initial_i i : nat) (value : N) : res cht :=
  do w <- fv_get (ch_arr t) i;
  do t <- (if is_null w then Ok t
           else do j <- find_null (S (ch_bucket t)) t i; shift_slots (S (ch_bucket t)) t i j);
  do w0 <- fv_get (ch_arr t) initial_i;
  do q <- shl64 quo 4;
  do t <- (if negb (is_occupied w0) then
             do t <- put_word t initial_i (N.lor w0 kOccupiedMask);
             do w <- fv_get (ch_arr t) i;
             put_word t i (N.lor (N.lor (N.land w kOccupiedMask) q) (if i =? initial_i then 0%N else kShiftedMask))
           else
             do w <- fv_get (ch_arr t) i;
             put_word t i (N.lor (N.lor (N.lor (N.land w kOccupiedMask) q) kContinuationMask) kShiftedMask));
  put_value (with_counts t (size_up (ch_size t)) (S (ch_used t))) i value.
(** CHT.hpp:118-170: set, after the growth check *)
Definition cht_insert (t : cht) (key value : N) : res cht :=
  do qi <- cht_locate t key;
  let '(quo, initial_i) := qi in
  do i <- to_cluster_head t initial_i;
  do w <- fv_get (ch_arr t) initial_i;
  do r <- (if is_occupied w then find_quotient (S (ch_bucket t)) t quo i else Ok (inr i));
  match r with inl i => cht_overwrite t i value | inr i => cht_insert_at t quo initial_i i value end.

Section Resize.
Variable set : cht -> N -> N -> res cht.
(** CHT.hpp:242-244 *)
Fixpoint skip_to_cluster (fuel : nat) (t : cht) (i : nat) : res nat :=
  match fuel with
  | O => Fuel
  | S fuel => do w <- fv_get (ch_arr t) i; if is_occupied w && negb (is_shifted w) then Ok i else skip_to_cluster fuel t (cht_succ t i)
  end.
(** CHT.hpp:247-263; [qs] is the queue, [f] the current home (indeterminate at first); returns (next, i, cnt) *)
Fixpoint move_cluster (fuel : nat) (t next : cht) (i cnt : nat) (qs : list nat) (f : option nat) : res (cht * nat * nat) :=
  match fuel with
  | O => Fuel
  | S fuel =>
      do w <- fv_get (ch_arr t) i;
      let qs := if is_occupied w then qs ++ [i] else qs in
      do qf <- (if is_continuation w then Ok (qs, f) else match qs with [] => UB | x :: qs => Ok (qs, Some x) end);
      let '(qs, f) := qf in
      do next <- (if is_deleted w then Ok next else
                  match f with
                  | None => UB
                  | Some f =>
                      do q <- quotient t w;
                      do x <- shl64 q (N.of_nat (ch_bucket_bits t));
                      do k <- sm_ihash (N.of_nat (ch_key_bits t)) (N.lor x (N.of_nat f));
                      do v <- fv_get (ch_values t) i;
                      set next k v
                  end);
      let i := cht_succ t i in
      do w <- fv_get (ch_arr t) i;
      if is_shifted w then move_cluster fuel t next i (S cnt) qs f else Ok (next, i, S cnt)
  end.
(** CHT.hpp:241-264 *)
Fixpoint move_all (fuel : nat) (t next : cht) (i cnt : nat) : res cht :=
  if cnt <? ch_used t then
    match fuel with
    | O => Fuel
    | S fuel =>
        do i <- skip_to_cluster (S (ch_bucket t)) t i;
        do r <- move_cluster (S (ch_bucket t)) t next i cnt [] None;
        let '(next, i, cnt) := r in move_all fuel t next i cnt
    end
  else Ok next.
(** CHT.hpp:235-266 *)
Definition cht_resize (t : cht) (bucket : nat) : res cht :=
  let next := cht_make (ch_key_bits t) bucket in
  do next <- (if VB =? 0 then cht_set_value_width next (fv_width (ch_values t)) else Ok next);
  move_all (S (ch_bucket t)) t next 0 0.
(** CHT.hpp:223-229; division by zero for MaxLoadFactorPercent = 0 does not compile into defined behaviour *)
Definition cht_reserve_with (t : cht) (n : nat) : res cht :=
  if n <=? ch_size t then Ok t else
  let need := wrap64 (wrap64 (N.of_nat n * 99) / N.of_nat L + 1) in
  let bits := wsub 64 (clz64 (wsub need 1)) in
  do b <- shl64 1 bits;
  cht_resize t (N.to_nat b).
End Resize.

(** CHT.hpp:110-170. set and _resize call each other; the fuel bounds that nesting, which never exceeds two levels (CHTProof.v) *)
Fixpoint cht_set_fuel (fuel : nat) (t : cht) (key value : N) : res cht :=
  match fuel with
  | O => Fuel
  | S fuel =>
      do t <- (if cht_is_filled t then cht_reserve_with (cht_set_fuel fuel) t (size_twice (ch_size t)) else Ok t);
      cht_insert t key value
  end.
Definition cht_set : cht -> N -> N -> res cht := cht_set_fuel 4.
Definition cht_reserve : cht -> nat -> res cht := cht_reserve_with cht_set.

(** CHT.hpp:176-193; the division by bucket_bits_ is as in the source *)
Definition cht_erase_here (t : cht) (key : N) : res cht :=
  do h <- sm_hash (N.of_nat (ch_key_bits t)) key;
  if ch_bucket_bits t =? 0 then UB else
  let quo := (h / N.of_nat (ch_bucket_bits t))%N in
  do m <- shl64 1 (N.of_nat (ch_bucket_bits t));
  let initial_i := N.to_nat (N.land h (wsub m 1)) in
  do w <- fv_get (ch_arr t) initial_i;
  if negb (is_occupied w) then Ok t else
  do i <- to_cluster_head t initial_i;
  do r <- find_quotient (S (ch_bucket t)) t quo i;
  match r with
  | inl i => do w <- fv_get (ch_arr t) i;
             if is_deleted w then Ok t
             else do t <- put_word t i (N.lor w kDeletedMask); Ok (with_counts t (size_down (ch_size t)) (ch_used t))
  | inr _ => Ok t
  end.
(** CHT.hpp:172-193 *)
Definition cht_erase (t : cht) (key : N) : res cht :=
  do t <- (if ch_size t =? ch_min t then cht_reserve t (size_twice (ch_size t)) else Ok t);
  cht_erase_here t key.

(** Histories *)
Definition cht_step (t : cht) (o : map_op) : res cht :=
  match o with MapSet k v => cht_set t k v | MapReserve n => cht_reserve t n end.
(** a table with values of [w] bits: by the template parameter, or by set_value_width if that is 0 *)
Definition cht_start (key_bits bucket w : nat) : res cht :=
  if VB =? 0 then cht_set_value_width (cht_make key_bits bucket) w else Ok (cht_make key_bits bucket).
Definition cht_run (key_bits bucket w : nat) (ops : list map_op) : res cht := do t <- cht_start key_bits bucket w; foldM cht_step ops t.
(** histories with erase *)
Definition tab_step (t : cht) (o : tab_op) : res cht :=
  match o with TabSet k v => cht_set t k v | TabReserve n => cht_reserve t n | TabErase k => cht_erase t k end.
Definition tab_run (key_bits bucket w : nat) (ops : list tab_op) : res cht := do t <- cht_start key_bits bucket w; foldM tab_step ops t.
End Params.
