(** Independent specifications used in the property statements.
    None of these mention the model. *)
From Coq Require Import List NArith Arith Bool.
Import ListNotations.

(** Number of one bits among the [w] low bits of a word. *)
Definition ones_below (w : nat) (x : N) : nat :=
  length (filter (fun i => N.testbit x (N.of_nat i)) (seq 0 w)).

(** Value of the [k]-bit field number [j] of a word (field j occupies bits j*k .. j*k+k-1). *)
Definition field (k : nat) (x : N) (j : nat) : N :=
  (N.shiftr x (N.of_nat (j * k)) mod 2 ^ N.of_nat k)%N.

(** Number of fields (among the first [n]) of width [k] equal to [v]. *)
Definition fields_equal (k n : nat) (v x : N) : nat :=
  length (filter (fun j => N.eqb (field k x j) v) (seq 0 n)).

(** Number of ones in a list of bits. *)
Definition count_true (l : list bool) : nat := length (filter (fun b => b) l).

(** Number of ones before the last multiple of 512 that is not above the length. *)
Definition ones_before_last_block (l : list bool) : nat := count_true (firstn (512 * (length l / 512)) l).

(** Position [p] is the index of the one bit that has exactly [k] ones before it. *)
Definition is_kth_one (l : list bool) (k p : nat) : Prop :=
  nth_error l p = Some true /\ count_true (firstn p l) = k.

(** Position of the lowest / highest one bit of a number. *)
Definition lowest_one (v p : N) : Prop :=
  N.testbit v p = true /\ forall i, (i < p)%N -> N.testbit v i = false.
Definition highest_one (v p : N) : Prop :=
  N.testbit v p = true /\ forall i, (p < i)%N -> N.testbit v i = false.

(** Four 64-bit words. *)
Definition words256 (x : list N) : Prop := length x = 4 /\ Forall (fun w => (w < 2 ^ 64)%N) x.

(** Bit [i] of the 256-bit number whose words are [x], least significant word first. *)
Definition bit256 (x : list N) (i : N) : bool := N.testbit (nth (N.to_nat (i / 64)) x 0%N) (i mod 64)%N.

(** The 256-bit number formed by a list of words, least significant first. *)
Fixpoint value256 (x : list N) : N := match x with [] => 0 | w :: r => w + 2 ^ 64 * value256 r end%N.

(** Number of occurrences of [c] in a list. *)
Definition occurrences_N (c : N) (l : list N) : nat := length (filter (N.eqb c) l).

(** Number of bits needed to write a value (at least one). *)
Definition bits_needed (v : N) : nat :=
  if N.eqb v 0 then 1 else S (N.to_nat (N.log2 v)).

(** Greatest number of bits needed by a value of the list; 0 for the empty list. *)
Definition max_bits (l : list N) : nat := fold_right Nat.max 0 (map bits_needed l).

Definition count_if {A} (p : A -> bool) (l : list A) : nat := length (filter p l).

Definition list_sum_nat (l : list nat) : nat := fold_right Nat.add 0 l.

(** Operations on a bit vector and their meaning on a plain sequence of booleans
    ([None]: the call is outside its contract). *)
Inductive bv_op :=
| BVResize (n : nat) (b : bool)         (* resize(n, b) *)
| BVPush (b : bool)                     (* push_back(b) *)
| BVAssign (n : nat) (b : bool)         (* assign(n, b) *)
| BVFill (i j : nat) (b : bool)         (* fill(begin()+i, begin()+j, b) *)
| BVWrite (i : nat) (b : bool).         (* v[i] = b *)

Definition bits_step (l : list bool) (o : bv_op) : option (list bool) :=
  match o with
  | BVResize n b => Some (firstn n l ++ repeat b (n - length l))
  | BVPush b => Some (l ++ [b])
  | BVAssign n b => Some (repeat b n)
  | BVFill i j b => if (i <=? j) && (j <=? length l) then Some (firstn i l ++ repeat b (j - i) ++ skipn j l) else None
  | BVWrite i b => if i <? length l then Some (firstn i l ++ b :: skipn (S i) l) else None
  end.

Fixpoint bits_run (l : list bool) (ops : list bv_op) : option (list bool) :=
  match ops with
  | [] => Some l
  | o :: ops => match bits_step l o with Some l' => bits_run l' ops | None => None end
  end.

(** Operations on a vector of numbers and their meaning on a plain sequence ([None]: outside the
    contract). The flag records that no operation so far has made the sequence shorter. *)
Inductive fv_op :=
| FVResize (n : nat)            (* resize(n): new elements are zero *)
| FVResizeV (n : nat) (x : N)   (* resize(n, x) *)
| FVAssign (n : nat) (x : N)    (* assign(n, x) *)
| FVPush (x : N)                (* push_back(x) *)
| FVWrite (i : nat) (x : N).    (* v[i] = x *)

Definition nums_step (st : list N * bool) (o : fv_op) : option (list N * bool) :=
  let '(l, grown) := st in
  match o with
  | FVResize n => Some (firstn n l ++ repeat 0%N (n - length l), grown && (length l <=? n))
  | FVResizeV n x => Some (firstn n l ++ repeat x (n - length l), grown && (length l <=? n))
  | FVAssign n x => Some (repeat x n, grown && (length l <=? n))
  | FVPush x => Some (l ++ [x], grown)
  | FVWrite i x => if i <? length l then Some (firstn i l ++ x :: skipn (S i) l, grown) else None
  end.

Fixpoint nums_run (st : list N * bool) (ops : list fv_op) : option (list N * bool) :=
  match ops with
  | [] => Some st
  | o :: ops => match nums_step st o with Some st' => nums_run st' ops | None => None end
  end.

(** Every value an operation stores fits in [w] bits. *)
Definition op_fits (w : nat) (o : fv_op) : Prop :=
  match o with
  | FVResize _ => True
  | FVResizeV _ x | FVAssign _ x | FVPush x | FVWrite _ x => (x < 2 ^ N.of_nat w)%N
  end.

(** Every resize(n) that makes the sequence longer happens before any operation that made it shorter. *)
Fixpoint plain_growth_first (st : list N * bool) (ops : list fv_op) : Prop :=
  match ops with
  | [] => True
  | o :: ops =>
      match o with FVResize n => length (fst st) < n -> snd st = true | _ => True end /\
      match nums_step st o with Some st' => plain_growth_first st' ops | None => True end
  end.
