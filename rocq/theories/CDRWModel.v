(** Model of CDRWArray.hpp. The tables are CHT<0>, load factor 50 per cent, 8 buckets at first (CHT.hpp:14, 19).
    FitVector() and set_value_width(64) evaluate WidthMask(64), a shift by 64 (C06). As everywhere in the model of FitVector,
    the mask is only computed when an element is read or written, so it is the use of such a vector that is [UB]. *)
From Coq Require Import List NArith ZArith Arith Bool.
From Verif Require Import Base Spec4 BitUtilModel FitVectorModel HashModel CHTModel.
Import ListNotations.
Local Open Scope nat_scope.

(** CDRWArray.hpp:12-14 *)
Record cdrw := CDRW { cd_size : nat; cd_widths : fitvec; cd_tables : list cht }.

(** CHT.hpp:50: CHT() = default under value-initialisation (CDRWArray.hpp:14) *)
Definition cht_zero : cht := CHT 0 0 0 0 0 (fv_make 64) (fv_make 64) 0 0 0.

(** CDRWArray.hpp:17-25 *)
Definition cdrw_make (n : nat) : res cdrw :=
  if n =? 0 then Ok (CDRW 0 (fv_make 64) (repeat cht_zero 64)) else
  let bits := N.to_nat (wsub 64 (clz64 (N.of_nat (n - 1)))) in
  do ts <- mapM (fun i => cht_start 0 50 bits 8 (i + 1)) (seq 0 64);
  Ok (CDRW n (fv_sized 7 n) ts).

(** CDRWArray.hpp:34-43; the assert is off, an absent key yields 0 *)
Definition cdrw_get (a : cdrw) (i : nat) : res N :=
  do w <- fv_get (cd_widths a) i;
  if (w =? 0)%N then Ok 0%N else
  do t <- lget (cd_tables a) (N.to_nat w - 1);
  do r <- cht_get t (N.of_nat i);
  Ok (match r with Some v => v | None => 0%N end).

(** CDRWArray.hpp:48-49; the table number is [pw], as in the source *)
Definition cdrw_forget (a : cdrw) (i : nat) (pw bits : N) : res cdrw :=
  if negb (pw =? 0)%N && negb (pw =? bits)%N then
    do t <- lget (cd_tables a) (N.to_nat pw);
    do t <- cht_erase 0 50 t (N.of_nat i);
    do ts <- lset (cd_tables a) (N.to_nat pw) t;
    Ok (CDRW (cd_size a) (cd_widths a) ts)
  else Ok a.
(** CDRWArray.hpp:45-53 *)
Definition cdrw_set (a : cdrw) (i : nat) (value : N) : res cdrw :=
  let bits := wsub 64 (clz64 value) in
  do pw <- fv_get (cd_widths a) i;
  do a <- cdrw_forget a i pw bits;
  do ws <- fv_set (cd_widths a) i bits;
  if (0 <? bits)%N then
    do t <- lget (cd_tables a) (N.to_nat bits - 1);
    do t <- cht_set 0 50 t (N.of_nat i) value;
    do ts <- lset (cd_tables a) (N.to_nat bits - 1) t;
    Ok (CDRW (cd_size a) ws ts)
  else Ok (CDRW (cd_size a) ws (cd_tables a)).

(** CDRWArray.hpp:27-32 *)
Definition cdrw_of_list (l : list N) : res cdrw :=
  do a <- cdrw_make (length l); foldM (fun a ix => cdrw_set a (fst ix) (snd ix)) (combine (seq 0 (length l)) l) a.
Definition cdrw_run (n : nat) (ws : list (nat * N)) : res cdrw :=
  do a <- cdrw_make n; foldM (fun a ix => cdrw_set a (fst ix) (snd ix)) ws a.

(** CDRWArray.hpp:62-64 *)
Record cdvec := CDV { dv_size : nat; dv_cap : nat; dv_arr : cdrw }.
(** CDRWArray.hpp:67 *)
Definition cdv_make (n : nat) : res cdvec := do a <- cdrw_make n; Ok (CDV n n a).
(** CDRWArray.hpp:73-79 *)
Definition cdv_get (v : cdvec) (i : nat) : res N := cdrw_get (dv_arr v) i.
Definition cdv_set (v : cdvec) (i : nat) (x : N) : res cdvec := do a <- cdrw_set (dv_arr v) i x; Ok (CDV (dv_size v) (dv_cap v) a).
(** CDRWArray.hpp:122-130; the asserts are off *)
Definition cdv_allocate (v : cdvec) (cap : nat) : res cdvec :=
  do next <- cdrw_make cap;
  do next <- foldM (fun next i => do x <- cdv_get v i; cdrw_set next i x) (seq 0 (dv_size v)) next;
  Ok (CDV (dv_size v) cap next).
(** CDRWArray.hpp:81-117 *)
Definition cdv_step (v : cdvec) (o : dv_op) : res cdvec :=
  match o with
  | DResize n =>
      do v <- (if dv_cap v <? n then cdv_allocate v (Nat.max n (dv_cap v * 2)) else Ok v);
      Ok (CDV n (dv_cap v) (dv_arr v))
  | DReserve n => if n <=? dv_cap v then Ok v else cdv_allocate v (Nat.max n (dv_cap v * 2))
  | DShrink => if dv_size v =? dv_cap v then Ok v else cdv_allocate v (dv_size v)
  | DPush x =>
      do v <- (if dv_size v =? dv_cap v then cdv_allocate v (dv_size v * 2) else Ok v);
      let v := CDV (S (dv_size v)) (dv_cap v) (dv_arr v) in
      cdv_set v (dv_size v - 1) x
  | DPop =>
      if dv_size v =? 0 then Ok v else
      do v <- (if dv_size v * 3 <? dv_cap v then cdv_allocate v (dv_size v * 2) else Ok v);
      Ok (CDV (dv_size v - 1) (dv_cap v) (dv_arr v))
  | DClear => Ok (CDV 0 (dv_cap v) (dv_arr v))
  | DSet i x => cdv_set v i x
  end.
Definition cdv_run (n : nat) (ops : list dv_op) : res cdvec := do v <- cdv_make n; foldM cdv_step ops v.
