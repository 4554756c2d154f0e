(** Model of FitVector.hpp and of BitsReference (BitsReference.hpp:20-112).
    [mask_] is WidthMask(bits_per_element_), a shift that is undefined for a width of 64 or more
    (the default constructor's width is 64). The model postpones that undefinedness to the first use of the
    mask, so that a FitVector of width 64 may be constructed and overwritten, as members of other
    containers are.
    Products index * bits_per_element_ are not wrapped.
    BitsIterator (BitsReference.hpp:115-222) is not modelled: its comparison operators name a member
    that does not exist, so a loop over it does not compile. *)
From Coq Require Import List NArith ZArith Arith Bool.
From Verif Require Import Base Spec BitUtilModel CalcModel.
Import ListNotations.
Local Open Scope nat_scope.

(** BitsReference.hpp:38-44 and 93-99: operator value_type. [seg] indexes the word array. *)
Definition bits_read (ws : list N) (seg off w : nat) : res N :=
  do m <- WidthMask (N.of_nat w);
  do x <- lget ws seg;
  do a <- shr64 x (N.of_nat off);
  if w + off <=? 64 then Ok (N.land a m)
  else
    do y <- lget ws (seg + 1);
    do b <- shl64 y (N.of_nat (64 - off));
    Ok (N.land (N.lor a b) m).

(** BitsReference.hpp:46-53: operator= *)
Definition bits_write (ws : list N) (seg off w : nat) (value : N) : res (list N) :=
  do m <- WidthMask (N.of_nat w);
  do x <- lget ws seg;
  do hole <- shl64 m (N.of_nat off);
  do v <- shl64 value (N.of_nat off);
  do ws <- lset ws seg (N.lor (N.land x (wnot hole)) v);
  if 64 <? w + off then
    let roffset := N.of_nat (64 - off) in
    do y <- lget ws (seg + 1);
    do hole <- shr64 m roffset;
    do v <- shr64 value roffset;
    lset ws (seg + 1) (N.lor (N.land y (wnot hole)) v)
  else Ok ws.

(** FitVector.hpp:46-51 *)
Record fitvec := FV { fv_width : nat; fv_size : nat; fv_words : list N }.

(** FitVector.hpp:54 *)
Definition fv_make (w : nat) : fitvec := FV w 0 [].

(** FitVector.hpp:128 *)
Definition fv_word_size (n w : nat) : nat :=
  if (n =? 0) || (w =? 0) then 0 else (n * w - 1) / 64 + 1.

(** FitVector.hpp:127-130 *)
Definition fv_resize (v : fitvec) (n : nat) : fitvec :=
  FV (fv_width v) n (lresize (fv_words v) (fv_word_size n (fv_width v)) 0%N).

(** FitVector.hpp:87-89 with abs_, rel_, make_ref (169-181) *)
Definition fv_get (v : fitvec) (i : nat) : res N :=
  bits_read (fv_words v) (i * fv_width v / 64) (i * fv_width v mod 64) (fv_width v).
Definition fv_set (v : fitvec) (i : nat) (x : N) : res fitvec :=
  do ws <- bits_write (fv_words v) (i * fv_width v / 64) (i * fv_width v mod 64) (fv_width v) x;
  Ok (FV (fv_width v) (fv_size v) ws).

(** FitVector.hpp:91-103 *)
Definition fv_at (v : fitvec) (i : nat) : res N := if fv_size v <=? i then Throw else fv_get v i.
Definition fv_at_set (v : fitvec) (i : nat) (x : N) : res fitvec := if fv_size v <=? i then Throw else fv_set v i x.

(** FitVector.hpp:132-137 *)
Definition fv_resize_value (v : fitvec) (n : nat) (x : N) : res fitvec :=
  foldM (fun v i => fv_set v i x) (seq (fv_size v) (n - fv_size v)) (fv_resize v n).

(** FitVector.hpp:139-143 *)
Definition fv_assign (v : fitvec) (n : nat) (x : N) : res fitvec :=
  foldM (fun v i => fv_set v i x) (seq 0 n) (fv_resize v n).

(** FitVector.hpp:149-152, back() = operator[](size() - 1) *)
Definition fv_push_back (v : fitvec) (x : N) : res fitvec :=
  let v := fv_resize v (fv_size v + 1) in fv_set v (fv_size v - 1) x.

(** FitVector.hpp:113-119 *)
Definition fv_front (v : fitvec) : res N := fv_get v 0.
Definition fv_back (v : fitvec) : res N := if fv_size v =? 0 then UB else fv_get v (fv_size v - 1).

(** FitVector.hpp:56-62 *)
Definition fv_sized (w n : nat) : fitvec := fv_resize (fv_make w) n.
Definition fv_filled (w n : nat) (x : N) : res fitvec := fv_assign (fv_make w) n x.

(** std::max_element on a non-empty vector of unsigned values *)
Definition max_element (l : list N) : N := fold_left N.max l 0%N.

(** FitVector.hpp:79-85 *)
Definition minimal_word_size (l : list N) : res nat :=
  match l with [] => Ok 0 | _ => SizeFitsInBits (max_element l) end.

(** FitVector.hpp:69-75; elements are already of type value_type *)
Definition fv_of_list (l : list N) : res fitvec :=
  do w <- minimal_word_size l;
  foldM fv_push_back l (fv_make w).

(** One operation of a history (the operations are listed in Spec.v) *)
Definition fv_step (v : fitvec) (o : fv_op) : res fitvec :=
  match o with
  | FVResize n => Ok (fv_resize v n)
  | FVResizeV n x => fv_resize_value v n x
  | FVAssign n x => fv_assign v n x
  | FVPush x => fv_push_back v x
  | FVWrite i x => fv_set v i x
  end.
Definition fv_run (v : fitvec) (ops : list fv_op) : res fitvec := foldM fv_step ops v.
