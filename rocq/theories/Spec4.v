(** Independent specifications, fourth part (maps, strings). *)
From Coq Require Import List NArith ZArith Arith Bool.
Import ListNotations.
Local Open Scope nat_scope.

(** ** Maps (C41, C42) *)
Inductive map_op := MapSet (k v : N) | MapReserve (n : nat).
(** the value last given to [k]; the most recent operation comes last *)
Fixpoint last_set (k : N) (ops : list map_op) : option N :=
  match ops with
  | [] => None
  | MapReserve _ :: ops => last_set k ops
  | MapSet k' v :: ops => match last_set k ops with Some w => Some w | None => if (k =? k')%N then Some v else None end
  end.
Definition map_keys (ops : list map_op) : list N := flat_map (fun o => match o with MapSet k _ => [k] | MapReserve _ => [] end) ops.
Definition distinct_keys (ops : list map_op) : nat := length (nodup N.eq_dec (map_keys ops)).
(** keys of [kb] bits, values of [vb] bits *)
Definition map_op_in (kb vb : nat) (o : map_op) : Prop :=
  match o with
  | MapSet k v => (k < 2 ^ N.of_nat kb)%N /\ (v < 2 ^ N.of_nat vb)%N
  | MapReserve n => (N.of_nat n < 2 ^ 50)%N
  end.

(** ** Integer arrays written by index (C43, C44) *)
Definition last_value (ws : list (nat * N)) (i : nat) : N := fold_left (fun x w => if fst w =? i then snd w else x) ws 0%N.
(** no write changes the bit length of a non-zero value *)
Definition width_kept (ws : list (nat * N)) : Prop :=
  forall before i v after, ws = before ++ (i, v) :: after -> last_value before i = 0%N \/ N.size (last_value before i) = N.size v.
Inductive dv_op := DPush (v : N) | DPop | DResize (n : nat) | DReserve (n : nat) | DShrink | DClear | DSet (i : nat) (v : N).
Definition put_at (l : list N) (i : nat) (v : N) : list N := firstn i l ++ v :: skipn (S i) l.
(** sequences that only grow; a write keeps the bit length of a non-zero element *)
Definition grow_step (l : list N) (o : dv_op) : option (list N) :=
  match o with
  | DPush v => if (v <? 2 ^ 63)%N && (N.of_nat (length l) <? 2 ^ 48)%N then Some (l ++ [v]) else None
  | DReserve n => if (N.of_nat n <? 2 ^ 48)%N then Some l else None
  | DShrink => Some l
  | DResize n => if (length l <=? n) && (N.of_nat n <? 2 ^ 48)%N then Some (l ++ repeat 0%N (n - length l)) else None
  | DSet i v => if (i <? length l) && (v <? 2 ^ 63)%N && ((nth i l 0 =? 0) || (N.size (nth i l 0) =? N.size v))%N then Some (put_at l i v) else None
  | DPop | DClear => None
  end.
(** sequences of values of one bit length [w], which may also shrink *)
Definition same_step (w : N) (l : list N) (o : dv_op) : option (list N) :=
  match o with
  | DPush v => if (N.size v =? w)%N && (N.of_nat (length l) <? 2 ^ 48)%N then Some (l ++ [v]) else None
  | DReserve n => if (N.of_nat n <? 2 ^ 48)%N then Some l else None
  | DShrink => if length l =? 0 then None else Some l
  | DResize n => if n <=? length l then Some (firstn n l) else None
  | DSet i v => if (i <? length l) && (N.size v =? w)%N then Some (put_at l i v) else None
  | DPop => Some (removelast l)
  | DClear => Some []
  end.
Fixpoint steps {S O : Type} (f : S -> O -> option S) (s : S) (ops : list O) : option S :=
  match ops with [] => Some s | o :: ops => match f s o with Some s => steps f s ops | None => None end end.

(** ** Occurrences of a string in a text (C45-C51) *)
Definition occurs_at (key text : list N) (i : nat) : bool :=
  if list_eq_dec N.eq_dec (firstn (length key) (skipn i text)) key then true else false.
Definition occurrences (key text : list N) : list nat := filter (occurs_at key text) (seq 0 (S (length text))).
Definition bytes_below (b : N) (s : list N) : Prop := Forall (fun c => (c < b)%N) s.
