(** Independent specifications, ninth part. *)
From Coq Require Import List NArith ZArith Arith Bool.
From Verif Require Spec4.
Import ListNotations.
Local Open Scope nat_scope.

(** ** Growing arrays (C89). A vector of [sz] elements on a tape: what lies beyond the elements stays there until the tape is replaced *)
Record tape := Tape { tp_size : nat; tp_cells : list N; tp_changes : nat }.
(** a new tape of [c] cells, with the elements and zeros after them *)
Definition retape (c : nat) (s : tape) : tape := Tape (tp_size s) (firstn (tp_size s) (tp_cells s) ++ repeat 0%N (c - tp_size s)) (tp_changes s).
(** cell [i] is written; the writes that change the bit length of a non-zero cell are counted *)
Definition tape_put (s : tape) (i : nat) (v : N) : tape :=
  let old := nth i (tp_cells s) 0%N in
  Tape (tp_size s) (Spec4.put_at (tp_cells s) i v) (tp_changes s + if negb (old =? 0)%N && negb (N.size old =? N.size v)%N then 1 else 0).
Definition resize_to (n : nat) (s : tape) : tape := Tape n (tp_cells s) (tp_changes s).
Definition tape_step (s : tape) (o : Spec4.dv_op) : option tape :=
  let sz := tp_size s in let cap := length (tp_cells s) in
  match o with
  | Spec4.DPush v => if (v <? 2 ^ 63)%N && (N.of_nat sz <? 2 ^ 48)%N then let s := if sz =? cap then retape (sz * 2) s else s in Some (resize_to (S sz) (tape_put s sz v)) else None
  | Spec4.DPop => if sz =? 0 then Some s else let s := if sz * 3 <? cap then retape (sz * 2) s else s in Some (resize_to (sz - 1) s)
  | Spec4.DResize n => if (N.of_nat n <? 2 ^ 48)%N then let s := if cap <? n then retape (Nat.max n (cap * 2)) s else s in Some (resize_to n s) else None
  | Spec4.DReserve n => if (N.of_nat n <? 2 ^ 48)%N then Some (if cap <? n then retape (Nat.max n (cap * 2)) s else s) else None
  | Spec4.DShrink => if sz =? cap then Some s else if sz =? 0 then None else Some (retape sz s)
  | Spec4.DClear => Some (resize_to 0 s)
  | Spec4.DSet i v => if (i <? sz) && (v <? 2 ^ 63)%N then Some (tape_put s i v) else None
  end.
