(** CDRWArray.hpp in a build with assertions on: the functions of CDRWModel.v with the asserts of CDRWArray.hpp, CHT.hpp and FitVector.hpp.
    [Throw] stands for a failed assertion. *)
From Coq Require Import List NArith ZArith Arith Bool.
From Verif Require Import Base Spec4 BitUtilModel FitVectorModel HashModel FoDebugModel CHTModel CHTDebugModel CDRWModel.
Import ListNotations.
Local Open Scope nat_scope.

(** CDRWArray.hpp:17-25 *)
Definition cdrw_make_d (n : nat) : res cdrw :=
  if n =? 0 then Ok (CDRW 0 (fv_make 64) (repeat cht_zero 64)) else
  let bits := N.to_nat (wsub 64 (clz64 (N.of_nat (n - 1)))) in
  do ws <- fv_sized_d 7 n;
  do ts <- mapM (fun i => cht_start_d 0 50 bits 8 (i + 1)) (seq 0 64);
  Ok (CDRW n ws ts).
(** CDRWArray.hpp:34-43 with the assertion of line 40 *)
Definition cdrw_get_d (a : cdrw) (i : nat) : res N :=
  do w <- fv_get_d (cd_widths a) i;
  if (w =? 0)%N then Ok 0%N else
  do t <- lget (cd_tables a) (N.to_nat w - 1);
  do r <- cht_get_d t (N.of_nat i);
  match r with Some v => Ok v | None => Throw end.
(** CDRWArray.hpp:48-49 *)
Definition cdrw_forget_d (a : cdrw) (i : nat) (pw bits : N) : res cdrw :=
  if negb (pw =? 0)%N && negb (pw =? bits)%N then
    do t <- lget (cd_tables a) (N.to_nat pw);
    do t <- cht_erase_d 0 50 t (N.of_nat i);
    do ts <- lset (cd_tables a) (N.to_nat pw) t;
    Ok (CDRW (cd_size a) (cd_widths a) ts)
  else Ok a.
(** CDRWArray.hpp:45-53 *)
Definition cdrw_set_d (a : cdrw) (i : nat) (value : N) : res cdrw :=
  let bits := wsub 64 (clz64 value) in
  do pw <- fv_get_d (cd_widths a) i;
  do a <- cdrw_forget_d a i pw bits;
  do ws <- fv_set_d (cd_widths a) i bits;
  if (0 <? bits)%N then
    do t <- lget (cd_tables a) (N.to_nat bits - 1);
    do t <- cht_set_d 0 50 t (N.of_nat i) value;
    do ts <- lset (cd_tables a) (N.to_nat bits - 1) t;
    Ok (CDRW (cd_size a) ws ts)
  else Ok (CDRW (cd_size a) ws (cd_tables a)).
Definition cdrw_run_d (n : nat) (ws : list (nat * N)) : res cdrw :=
  do a <- cdrw_make_d n; foldM (fun a ix => cdrw_set_d a (fst ix) (snd ix)) ws a.

(** CDRWArray.hpp:67 *)
Definition cdv_make_d (n : nat) : res cdvec := do a <- cdrw_make_d n; Ok (CDV n n a).
(** CDRWArray.hpp:73-79 *)
Definition cdv_get_d (v : cdvec) (i : nat) : res N := cdrw_get_d (dv_arr v) i.
Definition cdv_set_d (v : cdvec) (i : nat) (x : N) : res cdvec := do a <- cdrw_set_d (dv_arr v) i x; Ok (CDV (dv_size v) (dv_cap v) a).
(** CDRWArray.hpp:122-130 with the assertions of lines 123 and 124 *)
Definition cdv_allocate_d (v : cdvec) (cap : nat) : res cdvec :=
  do _ <- assert_that (dv_size v <=? cap);
  do _ <- assert_that (popcnt64 (N.of_nat cap) =? 1)%N;
  do next <- cdrw_make_d cap;
  do next <- foldM (fun next i => do x <- cdv_get_d v i; cdrw_set_d next i x) (seq 0 (dv_size v)) next;
  Ok (CDV (dv_size v) cap next).
(** CDRWArray.hpp:81-117 *)
Definition cdv_step_d (v : cdvec) (o : dv_op) : res cdvec :=
  match o with
  | DResize n =>
      do v <- (if dv_cap v <? n then cdv_allocate_d v (Nat.max n (dv_cap v * 2)) else Ok v);
      Ok (CDV n (dv_cap v) (dv_arr v))
  | DReserve n => if n <=? dv_cap v then Ok v else cdv_allocate_d v (Nat.max n (dv_cap v * 2))
  | DShrink => if dv_size v =? dv_cap v then Ok v else cdv_allocate_d v (dv_size v)
  | DPush x =>
      do v <- (if dv_size v =? dv_cap v then cdv_allocate_d v (dv_size v * 2) else Ok v);
      let v := CDV (S (dv_size v)) (dv_cap v) (dv_arr v) in
      cdv_set_d v (dv_size v - 1) x
  | DPop =>
      if dv_size v =? 0 then Ok v else
      do v <- (if dv_size v * 3 <? dv_cap v then cdv_allocate_d v (dv_size v * 2) else Ok v);
      Ok (CDV (dv_size v - 1) (dv_cap v) (dv_arr v))
  | DClear => Ok (CDV 0 (dv_cap v) (dv_arr v))
  | DSet i x => cdv_set_d v i x
  end.
Definition cdv_run_d (n : nat) (ops : list dv_op) : res cdvec := do v <- cdv_make_d n; foldM cdv_step_d ops v.
