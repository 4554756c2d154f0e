(** Model of FitVector.hpp with the member mask_ kept in the object, as the code does. FitVectorModel.v computes the mask at each use. *)
From Coq Require Import List NArith ZArith Arith Bool.
From Verif Require Import Base Spec BitUtilModel SmallDebugModel FitVectorModel.
Import ListNotations.
Local Open Scope nat_scope.

(** BitsReference.hpp:38-44 and 93-99 with the mask of the reference *)
Definition bits_read_m (m : N) (ws : list N) (seg off w : nat) : res N :=
  do x <- lget ws seg;
  do a <- shr64 x (N.of_nat off);
  if w + off <=? 64 then Ok (N.land a m)
  else
    do y <- lget ws (seg + 1);
    do b <- shl64 y (N.of_nat (64 - off));
    Ok (N.land (N.lor a b) m).
(** BitsReference.hpp:46-53 *)
Definition bits_write_m (m : N) (ws : list N) (seg off w : nat) (value : N) : res (list N) :=
  do x <- lget ws seg;
  do hole <- shl64 m (N.of_nat off);
  do v <- shl64 value (N.of_nat off);
  do ws <- lset ws seg (N.lor (N.land x (wnot hole)) v);
  if 64 <? w + off then
    let roffset := N.of_nat (64 - off) in
    do y <- lget ws (seg + 1);
    do hole <- shr64 m roffset;
    do v <- shr64 value roffset;
    lset ws (seg + 1) (N.lor (N.land y (wnot hole)) v)
  else Ok ws.

(** FitVector.hpp:45-51 *)
Record maskvec := MVec { mk_mask : N; mk_rest : fitvec }.
(** FitVector.hpp:54: the mask is computed by the constructor *)
Definition mk_new (w : nat) : res maskvec := do m <- WidthMask (N.of_nat w); Ok (MVec m (fv_make w)).
(** the same with the assertion of bit_util.hpp:34 *)
Definition mk_new_d (w : nat) : res maskvec := do m <- WidthMask_d (N.of_nat w); Ok (MVec m (fv_make w)).
(** FitVector.hpp:54 where the shift yields some word: [m] is that word minus one *)
Definition mk_given (w : nat) (m : N) : maskvec := MVec m (fv_make w).

(** FitVector.hpp:87-89, 169-181 *)
Definition mk_get (v : maskvec) (i : nat) : res N :=
  let f := mk_rest v in bits_read_m (mk_mask v) (fv_words f) (i * fv_width f / 64) (i * fv_width f mod 64) (fv_width f).
Definition mk_set (v : maskvec) (i : nat) (x : N) : res maskvec :=
  let f := mk_rest v in
  do ws <- bits_write_m (mk_mask v) (fv_words f) (i * fv_width f / 64) (i * fv_width f mod 64) (fv_width f) x;
  Ok (MVec (mk_mask v) (FV (fv_width f) (fv_size f) ws)).
(** FitVector.hpp:127-130 *)
Definition mk_resize (v : maskvec) (n : nat) : maskvec := MVec (mk_mask v) (fv_resize (mk_rest v) n).
(** FitVector.hpp:121 *)
Definition mk_size (v : maskvec) : nat := fv_size (mk_rest v).
(** FitVector.hpp:127-152 *)
Definition mk_step (v : maskvec) (o : fv_op) : res maskvec :=
  match o with
  | FVResize n => Ok (mk_resize v n)
  | FVResizeV n x => foldM (fun v i => mk_set v i x) (seq (mk_size v) (n - mk_size v)) (mk_resize v n)
  | FVAssign n x => foldM (fun v i => mk_set v i x) (seq 0 n) (mk_resize v n)
  | FVPush x => mk_set (mk_resize v (mk_size v + 1)) (mk_size v + 1 - 1) x
  | FVWrite i x => mk_set v i x
  end.
Definition mk_run (v : maskvec) (ops : list fv_op) : res maskvec := foldM mk_step ops v.
