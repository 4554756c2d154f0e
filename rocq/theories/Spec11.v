(** Independent specifications, eleventh part: arguments that fit (builds with assertions on). *)
From Coq Require Import List NArith ZArith Arith Bool.
From Verif Require Import Spec8.
From Verif Require Spec4 Spec9.
Import ListNotations.
Local Open Scope nat_scope.

(** every key stored has at most [kb] bits, every value at most [vw] (C94) *)
Definition stores_fit (kb vw : nat) (o : tab_op) : Prop :=
  match o with TabSet k v => (k < 2 ^ N.of_nat kb)%N /\ (v < 2 ^ N.of_nat vw)%N | _ => True end.
Definition power_of_two (n : nat) : Prop := exists b, n = 2 ^ b.

(** the size of the tape which an operation on a growing array brings in, if it does (C96) *)
Definition new_capacity (s : Spec9.tape) (o : Spec4.dv_op) : option nat :=
  let sz := Spec9.tp_size s in let cap := length (Spec9.tp_cells s) in
  match o with
  | Spec4.DPush _ => if sz =? cap then Some (sz * 2) else None
  | Spec4.DPop => if (0 <? sz) && (sz * 3 <? cap) then Some (sz * 2) else None
  | Spec4.DResize n | Spec4.DReserve n => if cap <? n then Some (Nat.max n (cap * 2)) else None
  | Spec4.DShrink => if sz =? cap then None else Some sz
  | Spec4.DClear | Spec4.DSet _ _ => None
  end.
