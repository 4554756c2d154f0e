(** Model of programs that keep references to elements of BitVectors and FitVectors: BitReference.hpp and
    BitsReference.hpp as objects. No vector changes its size while a reference to it is kept (a reallocation of the
    words would leave the pointers of the references dangling). *)
From Coq Require Import List NArith ZArith Arith Bool.
From Verif Require Import Base Spec29 BitUtilModel FitVectorModel BitVectorModel.
Import ListNotations.
Local Open Scope nat_scope.

Section Refs.
Context {V R A : Type}.
Variable take : V -> nat -> nat -> res R.
Variable addr : R -> res R.
Variable read : V -> R -> res A.
Variable write : V -> R -> A -> res V.

(** The copy constructor of a reference is the implicit one, it copies the fields (both classes declare only a copy
    assignment). operator= with a reference on the right: BitReference.hpp:46-48, BitsReference.hpp:55-58.
    std::swap(a, b): T tmp(std::move(a)); a = std::move(b); b = std::move(tmp); without move operations of their own
    the references are copied. *)
Definition ref_step (s : V * list R) (o : ref_op A) : res (V * list R) :=
  let '(v, rs) := s in
  match o with
  | RTake a i => do r <- take v a i; Ok (v, rs ++ [r])
  | RAlias k => do r <- lget rs k; Ok (v, rs ++ [r])
  | RAddr k => do r <- lget rs k; do r' <- addr r; Ok (v, rs ++ [r'])
  | RWrite k x => do r <- lget rs k; do v <- write v r x; Ok (v, rs)
  | RCopy k l => do r <- lget rs k; do q <- lget rs l; do x <- read v q; do v <- write v r x; Ok (v, rs)
  | RSwap k l =>
      do r <- lget rs k; do q <- lget rs l;
      let tmp := r in
      do x <- read v q; do v <- write v r x;
      do y <- read v tmp; do v <- write v q y; Ok (v, rs)
  end.
Definition ref_run (s : V * list R) (os : list (ref_op A)) : res (V * list R) := foldM ref_step os s.
End Refs.

(** ** FitVector *)
(** BitsReference.hpp:26-30: the fields of a reference; [p_vec] says in which vector's words seg_ points, and mask_ is
    WidthMask of [p_w]. *)
Record pref := PRef { p_vec : nat; p_seg : nat; p_off : nat; p_w : nat }.

(** FitVector.hpp:87, 169-175 operator[] with make_ref *)
Definition pr_take (vs : list fitvec) (a i : nat) : res pref :=
  do v <- lget vs a; Ok (PRef a (i * fv_width v / 64) (i * fv_width v mod 64) (fv_width v)).
(** BitsReference.hpp:38-44 *)
Definition pr_read (vs : list fitvec) (r : pref) : res N :=
  do v <- lget vs (p_vec r); bits_read (fv_words v) (p_seg r) (p_off r) (p_w r).
(** BitsReference.hpp:46-53 *)
Definition pr_write (vs : list fitvec) (r : pref) (x : N) : res (list fitvec) :=
  do v <- lget vs (p_vec r); do ws <- bits_write (fv_words v) (p_seg r) (p_off r) (p_w r) x;
  lset vs (p_vec r) (FV (fv_width v) (fv_size v) ws).
(** operator& gives a BitsIterator, whose constructor is private (BitsReference.hpp:60-62, 213): not callable *)
Definition pr_addr (r : pref) : res pref := Throw.
Definition fit_refs := ref_run pr_take pr_addr pr_read pr_write.

(** ** BitVector *)
(** BitReference.hpp:25-26 *)
Record qref := QRef { q_vec : nat; q_ref : bref }.
(** BitVector.hpp:65-71 *)
Definition qr_take (vs : list bitvec) (a i : nat) : res qref := do _ <- lget vs a; do r <- make_ref i; Ok (QRef a r).
(** BitReference.hpp:34-36 *)
Definition qr_read (vs : list bitvec) (r : qref) : res bool := do v <- lget vs (q_vec r); ref_get (bv_words v) (q_ref r).
(** BitReference.hpp:38-44 *)
Definition qr_write (vs : list bitvec) (r : qref) (x : bool) : res (list bitvec) :=
  do v <- lget vs (q_vec r); do ws <- ref_set (bv_words v) (q_ref r) x; lset vs (q_vec r) (BV (bv_size v) ws).
(** BitReference.hpp:50-52 operator& and 116-118 operator* of the iterator *)
Definition qr_addr (r : qref) : res qref := do b <- iter_deref (ref_addr (q_ref r)); Ok (QRef (q_vec r) b).
Definition bit_refs := ref_run qr_take qr_addr qr_read qr_write.
