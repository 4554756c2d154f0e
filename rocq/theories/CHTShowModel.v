(** Model of the debug output of CHT. *)
From Coq Require Import List NArith Arith.
From Verif Require Import Base FitVectorModel CHTModel InitShowModel.
Import ListNotations.
Local Open Scope nat_scope.

(** CHT.hpp:209-221: the three flags of every slot, and the counter of the shifted ones, which stays below the number of slots *)
Definition cht_print (t : cht) : res (list (bool * bool * bool) * nat) :=
  do rows <- for_int (ch_bucket t) (fun i => do w <- fv_get (ch_arr t) i; Ok (is_occupied w, is_continuation w, is_shifted w));
  Ok (rows, fold_left (fun c (r : bool * bool * bool) => if snd r then S c else c) rows 0).
