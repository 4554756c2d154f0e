(** Independent specifications, tenth part. *)
From Coq Require Import List NArith Arith Bool.
From Verif Require Spec5.
Import ListNotations.
Local Open Scope nat_scope.

(** ** Strings read as C strings (C91): up to the first zero byte *)
Fixpoint c_string (k : list N) : list N := match k with [] => [] | c :: k => if (c =? 0)%N then [] else c :: c_string k end.
Definition bytes (k : list N) : Prop := Forall (fun c => (c < 256)%N) k.
(** the same members, whatever their order and however often *)
Definition same_members {A} (a b : list A) : Prop := forall x, In x a <-> In x b.

(** ** Keys which do not stand together (C92) *)
Definition with_prefix (p : list N) (K : list (list N)) : list (list N) := filter (fun k => if list_eq_dec N.eq_dec (firstn (length p) k) p then true else false) K.
Definition next_byte (p k : list N) : N := nth (length p) k 0%N.
(** keys with the prefix [p]: one between two others which go on with the same byte goes on with another *)
Definition split_group (p : list N) (S : list (list N)) : Prop :=
  exists i j k, i < j /\ j < k /\ k < length S /\ next_byte p (nth i S []) = next_byte p (nth k S []) /\ next_byte p (nth j S []) <> next_byte p (nth i S []).
(** the first key is [p] itself, and there is one which goes on with a zero byte *)
Definition hidden_end (p : list N) (S : list (list N)) : Prop := hd_error S = Some p /\ exists r, In (p ++ 0%N :: r) S.
Definition scattered (K : list (list N)) : Prop := exists p, Forall (fun c => c <> 0%N) p /\ (split_group p (with_prefix p K) \/ hidden_end p (with_prefix p K)).
(** at most, in the order of strings *)
Definition lex_le (a b : list N) : Prop := a = b \/ Spec5.lex_lt a b.
