(** Independent specifications, twenty-ninth part: references to elements as names of elements (C132).
    An element is named by the number of its vector and its index. *)
From Coq Require Import List NArith Arith Bool.
Import ListNotations.

Definition name : Type := nat * nat.
Definition same_name (m n : name) : bool := (fst m =? fst n) && (snd m =? snd n).

(** What a program does with references. Kept references are numbered in the order in which they were made. *)
Inductive ref_op (A : Type) :=
| RTake (a i : nat)   (* auto r = v_a[i]; *)
| RAlias (k : nat)    (* auto r = r_k; *)
| RAddr (k : nat)     (* auto r = *(&r_k); *)
| RWrite (k : nat) (x : A) (* r_k = x; *)
| RCopy (k l : nat)   (* r_k = r_l; *)
| RSwap (k l : nat).  (* std::swap(r_k, r_l); *)
Arguments RTake {A}. Arguments RAlias {A}. Arguments RAddr {A}. Arguments RWrite {A}. Arguments RCopy {A}. Arguments RSwap {A}.

Section Names.
Context {A : Type}.
(** the values that vector a can hold *)
Variable fits : nat -> A -> bool.

Definition assigned (st : name -> option A) (n : name) (x : A) : name -> option A := fun m => if same_name m n then Some x else st m.

(** The contents of all vectors and the elements the kept references name. No result: an element or a reference that
    does not exist, or a value that the vector cannot hold. After a swap both elements have the value of the second. *)
Definition refs_step (s : (name -> option A) * list name) (o : ref_op A) : option ((name -> option A) * list name) :=
  let '(st, ns) := s in
  match o with
  | RTake a i => match st (a, i) with Some _ => Some (st, ns ++ [(a, i)]) | None => None end
  | RAlias k | RAddr k => match nth_error ns k with Some n => Some (st, ns ++ [n]) | None => None end
  | RWrite k x => match nth_error ns k with Some n => if fits (fst n) x then Some (assigned st n x, ns) else None | None => None end
  | RCopy k l =>
      match nth_error ns k, nth_error ns l with
      | Some n, Some m => match st m with Some x => if fits (fst n) x then Some (assigned st n x, ns) else None | None => None end
      | _, _ => None
      end
  | RSwap k l =>
      match nth_error ns k, nth_error ns l with
      | Some n, Some m => match st m with Some x => if fits (fst n) x then Some (assigned st n x, ns) else None | None => None end
      | _, _ => None
      end
  end.

Fixpoint refs_run (s : (name -> option A) * list name) (os : list (ref_op A)) : option ((name -> option A) * list name) :=
  match os with [] => Some s | o :: os => match refs_step s o with Some s => refs_run s os | None => None end end.
End Names.
