(** Independent specifications, third part (arrays, heaps, hash tables). *)
From Coq Require Import List NArith ZArith Arith Bool.
Import ListNotations.
Local Open Scope nat_scope.

(** ** Records of byte fields (C30)
    A table is a list of records, a record a list of field values; [sizes] are the widths of the fields in bytes. *)
Inductive mv_op :=
| MVResize (n : nat)                              (* resize(n) *)
| MVResizeV (n : nat) (vals : list N)             (* resize(n, {vals...}) *)
| MVEmplace                                       (* emplace_back() *)
| MVPush (vals : list N)                          (* push_back({vals...}) *)
| MVSet (i e : nat) (v : N)                       (* set_nested_element<e>(i, v) *)
| MVBlockSet (i e : nat) (v : N)                  (* block(i).set_at(e, v), block(i).set<e>(v) *)
| MVRestrictedSet (t i e : nat) (v : N).          (* block(i).restricted_set<e, T>(v), sizeof(T) = t *)
(** A record holding the given values reduced to their field sizes; fields without a value hold 0 *)
Fixpoint record (sizes : list nat) (vals : list N) : list N :=
  match sizes, vals with
  | [], _ => []
  | s :: sizes, [] => 0%N :: record sizes []
  | s :: sizes, v :: vals => (v mod 256 ^ N.of_nat s)%N :: record sizes vals
  end.
Definition change_at {A} (l : list A) (i : nat) (f : A -> A) : list A :=
  match nth_error l i with Some a => firstn i l ++ f a :: skipn (S i) l | None => l end.
(** The number with the low [m] bytes of [v] and the other bytes of [x] *)
Definition low_bytes_from (m : nat) (v x : N) : N :=
  (v mod 256 ^ N.of_nat m + 256 ^ N.of_nat m * (x / 256 ^ N.of_nat m))%N.
Definition mv_spec_step (sizes : list nat) (l : list (list N)) (o : mv_op) : option (list (list N)) :=
  match o with
  | MVResize n => Some (firstn n l ++ repeat (record sizes []) (n - length l))
  | MVResizeV n vals => if length vals <=? length sizes
                        then Some (firstn n l ++ repeat (record sizes vals) (n - length l)) else None
  | MVEmplace => Some (l ++ [record sizes []])
  | MVPush vals => if length vals <=? length sizes then Some (l ++ [record sizes vals]) else None
  | MVSet i e v | MVBlockSet i e v =>
      if (i <? length l) && (e <? length sizes)
      then Some (change_at l i (fun r => change_at r e (fun _ => v mod 256 ^ N.of_nat (nth e sizes 0%nat))%N)) else None
  | MVRestrictedSet t i e v =>
      if (i <? length l) && (e <? length sizes)
      then Some (change_at l i (fun r => change_at r e (low_bytes_from (Nat.min (nth e sizes 0) t) v))) else None
  end.
Fixpoint mv_spec_run (sizes : list nat) (l : list (list N)) (ops : list mv_op) : option (list (list N)) :=
  match ops with
  | [] => Some l
  | o :: ops => match mv_spec_step sizes l o with Some l' => mv_spec_run sizes l' ops | None => None end
  end.

(** ** Arrays with constant-time fill (C34-C36); histories most recent operation first *)
Inductive ia_op (A : Type) :=
| IAFill (v : A)              (* fill(v), init(v) *)
| IASet (i : nat) (v : A).    (* set(i, v), a[i] = v *)
Arguments IAFill {A} v.
Arguments IASet {A} i v.
Fixpoint ia_last {A} (first : A) (rev_ops : list (ia_op A)) (i : nat) : A :=
  match rev_ops with
  | [] => first
  | IAFill v :: _ => v
  | IASet j v :: r => if i =? j then v else ia_last first r i
  end.
Definition ia_op_in {A} (n : nat) (o : ia_op A) : Prop := match o with IASet i _ => i < n | _ => True end.

(** ** Orders (C37-C39) *)
(** A comparison function is a strict weak order *)
Definition strict_weak_order {A} (cmp : A -> A -> bool) : Prop :=
  (forall a, cmp a a = false) /\
  (forall a b c, cmp a b = true -> cmp b c = true -> cmp a c = true) /\
  (forall a b c, cmp a b = false -> cmp b a = false -> cmp b c = false -> cmp c b = false -> cmp a c = false /\ cmp c a = false).
(** No element comes before an earlier one *)
Definition ordered_by {A} (cmp : A -> A -> bool) (l : list A) : Prop :=
  forall i j a b, i < j -> nth_error l i = Some a -> nth_error l j = Some b -> cmp b a = false.
