(** Model of BitReference.hpp and BitVector.hpp.
    Storage is a list of 64-bit words; capacity, alignment and allocation failure are not modelled.
    Word pointers are represented by their signed offset (Z) from storage_.data(); signed 64-bit
    quantities are [Z] with explicit wrapping ([sgn64]). *)
From Coq Require Import List NArith ZArith Arith Bool.
From Verif Require Import Base Spec BitUtilModel.
Import ListNotations.
Local Open Scope nat_scope.

(** Conversion of an integer to difference_type (two's complement, 64 bits). *)
Definition sgn64 (z : Z) : Z := ((z + 2 ^ 63) mod 2 ^ 64 - 2 ^ 63)%Z.

Definition all_ones : N := (2 ^ 64 - 1)%N.

(** Dereference of a word pointer: offsets outside the storage are undefined. *)
Definition wgetZ (ws : list N) (s : Z) : res N :=
  if (s <? 0)%Z then UB else lget ws (Z.to_nat s).
Definition wsetZ (ws : list N) (s : Z) (w : N) : res (list N) :=
  if (s <? 0)%Z then UB else lset ws (Z.to_nat s) w.

(** BitReference.hpp:25-26, 65-66 the fields of a (const) reference *)
Record bref := Ref { ref_seg : Z; ref_mask : N }.

(** BitReference.hpp:34-36 and 74-76 operator bool *)
Definition ref_get (ws : list N) (r : bref) : res bool :=
  do w <- wgetZ ws (ref_seg r); Ok (negb (N.eqb (N.land w (ref_mask r)) 0)).

(** BitReference.hpp:38-44 operator=(bool) *)
Definition ref_set (ws : list N) (r : bref) (x : bool) : res (list N) :=
  do w <- wgetZ ws (ref_seg r);
  wsetZ ws (ref_seg r) (if x then N.lor w (ref_mask r) else N.land w (wnot (ref_mask r))).

(** BitReference.hpp:103-104 the fields of an iterator *)
Record iter := It { seg : Z; ctz_ : N }.

(** BitReference.hpp:50-52 operator& of a reference (the const version at 78-80 names an
    undeclared function and is not modelled) *)
Definition ref_addr (r : bref) : iter := It (ref_seg r) (ctz64 (ref_mask r)).

(** BitReference.hpp:116-118 operator* *)
Definition iter_deref (i : iter) : res bref := do m <- shl64 1 (ctz_ i); Ok (Ref (seg i) m).

(** BitReference.hpp:120-128 operator++ *)
Definition iter_inc (i : iter) : iter :=
  if N.eqb (ctz_ i) (64 - 1) then It (seg i + 1) 0 else It (seg i) (ctz_ i + 1).

(** BitReference.hpp:136-144 operator-- *)
Definition iter_dec (i : iter) : iter :=
  if N.eqb (ctz_ i) 0 then It (seg i - 1) (64 - 1) else It (seg i) (ctz_ i - 1).

(** BitReference.hpp:152-162 operator+=. [d] is a signed 64-bit value. *)
Definition iter_plus_eq (i : iter) (d : Z) : iter :=
  let s :=
    if (0 <=? d)%Z then (seg i + ((Z.of_N (ctz_ i) + d) mod 2 ^ 64) / 64)%Z
    else (seg i + Z.quot (sgn64 (d - 64 + Z.of_N (ctz_ i) + 1)) 64)%Z in
  let d := Z.land d (64 - 1) in
  It s (Z.to_N ((d + Z.of_N (ctz_ i)) mod 64)).

(** BitReference.hpp:164-166 operator-=. Negating the least value is undefined in C++; the
    theorems exclude it. *)
Definition iter_minus_eq (i : iter) (d : Z) : iter := iter_plus_eq i (- d).

(** BitReference.hpp:168-172, 174-178 operator+, operator- with a size_t argument *)
Definition iter_plus (i : iter) (n : Z) : iter := iter_plus_eq i (sgn64 n).
Definition iter_minus (i : iter) (n : Z) : iter := iter_minus_eq i (sgn64 n).

(** BitReference.hpp:182 difference: computed in size_t, converted to difference_type *)
Definition iter_diff (x y : iter) : Z :=
  sgn64 ((seg x - seg y) * 64 + Z.of_N (ctz_ x) - Z.of_N (ctz_ y)).

(** BitReference.hpp:186-196 comparisons *)
Definition iter_eqb (x y : iter) : bool := Z.eqb (seg x) (seg y) && N.eqb (ctz_ x) (ctz_ y).
Definition iter_ltb (x y : iter) : bool :=
  Z.ltb (seg x) (seg y) || (Z.eqb (seg x) (seg y) && N.ltb (ctz_ x) (ctz_ y)).
Definition iter_leb (x y : iter) : bool := negb (iter_ltb y x).

(** BitVector.hpp:42-43 *)
Record bitvec := BV { bv_size : nat; bv_words : list N }.

(** BitVector.hpp:60-63 get_word_size *)
Definition get_word_size (n : nat) : nat := if n =? 0 then 1 else (n - 1) / 64 + 1.

(** BitVector.hpp:65-71 _make_ref *)
Definition make_ref (pos : nat) : res bref :=
  do m <- OffsetMask (N.of_nat (pos mod 64)); Ok (Ref (Z.of_nat (pos / 64)) m).

(** BitVector.hpp:73-79 _make_iter *)
Definition make_iter (pos : nat) : iter := It (Z.of_nat (pos / 64)) (N.of_nat (pos mod 64)).

(** BitVector.hpp:93-95, 105-107 the loop over the inner words *)
Definition fill_inner (v : N) (from : Z) (n : nat) (ws : list N) : res (list N) :=
  foldM (fun ws k => wsetZ ws (from + Z.of_nat k)%Z v) (seq 0 n) ws.

(** BitVector.hpp:83-114 _fill *)
Definition fill (ws : list N) (b e : iter) (bit : bool) : res (list N) :=
  if iter_leb e b then Ok ws else
  let back := iter_minus e 1 in
  let eclz := (64 - (ctz_ back + 1))%N in
  let inner := Z.to_nat (seg back - (seg b + 1)) in
  if bit then
    if (seg b <? seg back)%Z then
      do w <- wgetZ ws (seg b);
      do m <- shl64 all_ones (ctz_ b);
      do ws <- wsetZ ws (seg b) (N.lor w m);
      do ws <- fill_inner all_ones (seg b + 1) inner ws;
      do w <- wgetZ ws (seg back);
      do m <- (if (0 <? ctz_ e)%N then do m <- shl64 all_ones (ctz_ e); Ok (wnot m) else Ok all_ones);
      wsetZ ws (seg back) (N.lor w m)
    else
      do w <- wgetZ ws (seg b);
      do m1 <- shl64 all_ones (ctz_ b);
      do m2 <- shr64 all_ones eclz;
      wsetZ ws (seg b) (N.lor w (N.land m1 m2))
  else
    if (seg b <? seg back)%Z then
      do w <- wgetZ ws (seg b);
      do m <- shl64 all_ones (ctz_ b);
      do ws <- wsetZ ws (seg b) (N.land w (wnot m));
      do ws <- fill_inner 0%N (seg b + 1) inner ws;
      do w <- wgetZ ws (seg back);
      do m <- (if (0 <? ctz_ e)%N then shl64 all_ones (ctz_ e) else Ok 0%N);
      wsetZ ws (seg back) (N.land w m)
    else
      do w <- wgetZ ws (seg b);
      do m1 <- shl64 all_ones (ctz_ b);
      do m2 <- shr64 all_ones eclz;
      wsetZ ws (seg b) (N.land w (wnot (N.land m1 m2))).

(** BitVector.hpp:52, 157 default constructor *)
Definition bv_default : bitvec := BV 0 [0%N].
(** BitVector.hpp:54, 159 constructor from a size (vector value-initialises its words) *)
Definition bv_sized (n : nat) : bitvec := BV n (repeat 0%N (get_word_size n)).
(** BitVector.hpp:56-58, 161 *)
Definition bv_filled (n : nat) (bit : bool) : res bitvec :=
  do ws <- fill (repeat 0%N (get_word_size n)) (make_iter 0) (make_iter n) bit; Ok (BV n ws).
(** BitVector.hpp:163-170 constructors from a list of bits: std::transform through the iterator *)
Definition transform_step (st : list N * iter) (b : bool) : res (list N * iter) :=
  let '(ws, it) := st in
  do r <- iter_deref it;
  do ws <- ref_set ws r b;
  Ok (ws, iter_inc it).
Definition bv_of_bits (l : list bool) : res bitvec :=
  do st <- foldM transform_step l (repeat 0%N (get_word_size (length l)), make_iter 0);
  Ok (BV (length l) (fst st)).

(** BitVector.hpp:116-126 _resize (214-220) *)
Definition bv_resize (v : bitvec) (n : nat) (bit : bool) : res bitvec :=
  if n <? bv_size v then Ok (BV n (lresize (bv_words v) (get_word_size n) 0%N))
  else if bv_size v <? n then
    do ws <- fill (lresize (bv_words v) (get_word_size n) 0%N) (make_iter (bv_size v)) (make_iter n) bit;
    Ok (BV n ws)
  else Ok v.

(** BitVector.hpp:206-208 push_back *)
Definition bv_push_back (v : bitvec) (bit : bool) : res bitvec := bv_resize v (bv_size v + 1) bit.

(** BitVector.hpp:128-132 _assign (222-224) *)
Definition bv_assign (v : bitvec) (n : nat) (bit : bool) : res bitvec :=
  do ws <- fill (lresize (bv_words v) (get_word_size n) 0%N) (make_iter 0) (make_iter n) bit;
  Ok (BV n ws).

(** BitVector.hpp:210-212 fill between two positions of the vector *)
Definition bv_fill (v : bitvec) (b e : nat) (bit : bool) : res bitvec :=
  do ws <- fill (bv_words v) (make_iter b) (make_iter e) bit; Ok (BV (bv_size v) ws).

(** BitVector.hpp:172-174 operator[] followed by a read / an assignment *)
Definition bv_get (v : bitvec) (i : nat) : res bool :=
  do r <- make_ref i; ref_get (bv_words v) r.
Definition bv_set (v : bitvec) (i : nat) (x : bool) : res bitvec :=
  do r <- make_ref i; do ws <- ref_set (bv_words v) r x; Ok (BV (bv_size v) ws).

(** BitVector.hpp:176-188 at *)
Definition bv_at (v : bitvec) (i : nat) : res bool :=
  if bv_size v <=? i then Throw else bv_get v i.
Definition bv_at_set (v : bitvec) (i : nat) (x : bool) : res bitvec :=
  if bv_size v <=? i then Throw else bv_set v i x.

(** BitVector.hpp:198-204 front, back. size() - 1 wraps for an empty vector: far out of bounds. *)
Definition bv_front (v : bitvec) : res bool := bv_get v 0.
Definition bv_back (v : bitvec) : res bool := if bv_size v =? 0 then UB else bv_get v (bv_size v - 1).

(** BitVector.hpp:190-196: reading all elements from begin() to end() with ++ *)
Fixpoint iterate (fuel : nat) (ws : list N) (it e : iter) : res (list bool) :=
  if iter_eqb it e then Ok [] else
  match fuel with
  | O => Fuel
  | S fuel =>
      do r <- iter_deref it; do b <- ref_get ws r;
      do l <- iterate fuel ws (iter_inc it) e; Ok (b :: l)
  end.
Definition bv_to_list (v : bitvec) : res (list bool) :=
  iterate (bv_size v) (bv_words v) (make_iter 0) (make_iter (bv_size v)).

(** One operation of a history (the operations are listed in Spec.v) *)
Definition bv_step (v : bitvec) (o : bv_op) : res bitvec :=
  match o with
  | BVResize n b => bv_resize v n b
  | BVPush b => bv_push_back v b
  | BVAssign n b => bv_assign v n b
  | BVFill i j b => bv_fill v i j b
  | BVWrite i b => bv_set v i b
  end.
Definition bv_run (v : bitvec) (ops : list bv_op) : res bitvec := foldM bv_step ops v.

(** The constructors, with the sequence each is meant to hold *)
Inductive bv_start : res bitvec -> list bool -> Prop :=
| StartDefault : bv_start (Ok bv_default) []
| StartSized n : bv_start (Ok (bv_sized n)) (repeat false n)
| StartFilled n b : bv_start (bv_filled n b) (repeat b n)
| StartBits l : bv_start (bv_of_bits l) l.


(** [v] is a vector obtained by some constructor and some history of operations whose meaning
    on plain sequences is [l]. *)
Definition bv_reach (v : bitvec) (l : list bool) : Prop :=
  exists s l0 ops, bv_start s l0 /\ bits_run l0 ops = Some l /\ (do v0 <- s; bv_run v0 ops) = Ok v.
