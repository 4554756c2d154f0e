(** Model of MultipleVector.hpp (MultipleVector and its block references). *)
From Coq Require Import List NArith ZArith Arith Bool.
From Verif Require Import Base Spec3 StreamModel.
Import ListNotations.
Local Open Scope nat_scope.

(** MultipleVector.hpp:180-185, 195-196; an Element is (pos, size) *)
Record multiple := MV { mv_table : list (nat * nat); mv_bytes : list N }.
Definition mv_default : multiple := MV [] [].

(** MultipleVector.hpp:229-246: both append to the table, positions restarting at 0; [pos] is the loop variable *)
Fixpoint mv_append (table : list (nat * nat)) (pos : nat) (sizes : list nat) : list (nat * nat) :=
  match sizes with [] => table | s :: r => mv_append (table ++ [(pos, s)]) (pos + s) r end.
Definition mv_set_element_sizes (m : multiple) (sizes : list nat) : multiple := MV (mv_append (mv_table m) 0 sizes) (mv_bytes m).
Definition mv_make (sizes : list nat) : multiple := mv_set_element_sizes mv_default sizes.

(** MultipleVector.hpp:248-251; back() of an empty vector is undefined *)
Definition mv_block_size (m : multiple) : res nat :=
  do e <- lget (mv_table m) (length (mv_table m) - 1); Ok (fst e + snd e).
(** MultipleVector.hpp:206-208 *)
Definition mv_offset (m : multiple) (i : nat) : res nat := do b <- mv_block_size m; Ok (i * b).
(** MultipleVector.hpp:257-259; division by zero is undefined *)
Definition mv_size (m : multiple) : res nat :=
  do b <- mv_block_size m; if b =? 0 then UB else Ok (length (mv_bytes m) / b).

(** The write loop of MultipleVector.hpp:210-215, 98-108, 110-118: bytes [offset+i], i < width;
    [value] is a 64-bit word (a narrower T is only shifted by less than its width) *)
Definition mv_write_bytes (bytes : list N) (offset width : nat) (value : N) : res (list N) :=
  foldM (fun bs i => do x <- shr64 value (N.of_nat (i * 8)); lset bs (offset + i) (x mod 256)%N) (seq 0 width) bytes.
(** The read loop of MultipleVector.hpp:217-223, 75-86, 88-96, 154-165 *)
Definition mv_read_bytes (bytes : list N) (offset width : nat) : res N :=
  foldM (fun v i => do b <- lget bytes (offset + i); do x <- shl64 b (N.of_nat (i * 8)); Ok (N.lor v x)) (seq 0 width) 0%N.

(** MultipleVector.hpp:269-276 *)
Definition mv_set_nested (m : multiple) (i e : nat) (v : N) : res multiple :=
  do o <- mv_offset m i; do el <- lget (mv_table m) e;
  do bs <- mv_write_bytes (mv_bytes m) (o + fst el) (snd el) v; Ok (MV (mv_table m) bs).
(** MultipleVector.hpp:278-283 *)
Definition mv_nested (m : multiple) (i e : nat) : res N :=
  do o <- mv_offset m i; do el <- lget (mv_table m) e; mv_read_bytes (mv_bytes m) (o + fst el) (snd el).

(** MultipleVector.hpp:261-267: the address of bytes_[offset], which must exist *)
Definition mv_block (m : multiple) (i : nat) : res nat :=
  do o <- mv_offset m i; do _ <- lget (mv_bytes m) o; Ok o.
(** MultipleVector.hpp:35-47, 144-147: get<e>(), get_at(e) *)
Definition mv_block_get (m : multiple) (i e : nat) : res N :=
  do p <- mv_block m i; do el <- lget (mv_table m) e; mv_read_bytes (mv_bytes m) (p + fst el) (snd el).
(** MultipleVector.hpp:40-43, 139-142: restricted_get<e, T>() for an unsigned T of [t] bytes *)
Definition mv_block_restricted_get (m : multiple) (t i e : nat) : res N :=
  do p <- mv_block m i; do el <- lget (mv_table m) e; mv_read_bytes (mv_bytes m) (p + fst el) (Nat.min (snd el) t).
(** MultipleVector.hpp:49-62: set<e>(v), set_at(e, v) on the block at byte [p] *)
Definition mv_set_at (p : nat) (m : multiple) (e : nat) (v : N) : res multiple :=
  do el <- lget (mv_table m) e; do bs <- mv_write_bytes (mv_bytes m) (p + fst el) (snd el) v; Ok (MV (mv_table m) bs).
Definition mv_block_set (m : multiple) (i e : nat) (v : N) : res multiple := do p <- mv_block m i; mv_set_at p m e v.
(** MultipleVector.hpp:54-57 *)
Definition mv_block_restricted_set (m : multiple) (t i e : nat) (v : N) : res multiple :=
  do p <- mv_block m i; do el <- lget (mv_table m) e;
  do bs <- mv_write_bytes (mv_bytes m) (p + fst el) (Nat.min (snd el) t) v; Ok (MV (mv_table m) bs).

(** MultipleVector.hpp:289-291 *)
Definition mv_resize (m : multiple) (n : nat) : res multiple :=
  do o <- mv_offset m n; Ok (MV (mv_table m) (lresize (mv_bytes m) o 0%N)).
(** The loop over the initializer list, MultipleVector.hpp:301-304, 315-319; [e] is the running index *)
Fixpoint mv_set_all (p : nat) (m : multiple) (e : nat) (vals : list N) : res multiple :=
  match vals with [] => Ok m | v :: r => do m <- mv_set_at p m e v; mv_set_all p m (S e) r end.
(** MultipleVector.hpp:293-307 *)
Definition mv_resize_v (m : multiple) (n : nat) (vals : list N) : res multiple :=
  do sz <- mv_size m;
  if n <? sz then mv_resize m n
  else if sz <? n then
    do m <- mv_resize m n;
    foldM (fun m i => do p <- mv_block m i; mv_set_all p m 0 vals) (seq sz (n - sz)) m
  else Ok m.
(** MultipleVector.hpp:309-311 *)
Definition mv_emplace_back (m : multiple) : res multiple := do sz <- mv_size m; mv_resize m (sz + 1).
(** MultipleVector.hpp:313-320 *)
Definition mv_push_back (m : multiple) (vals : list N) : res multiple :=
  do sz <- mv_size m; do m <- mv_resize m (sz + 1); do sz' <- mv_size m; do p <- mv_block m (sz' - 1); mv_set_all p m 0 vals.

(** MultipleVector.hpp:324-346; sizeof(Element) is 16 *)
Definition mv_size_in_bytes (m : multiple) : nat := size_vec 1 (mv_bytes m) + size_vec 16 (mv_table m) / 2.
Definition mv_store (m : multiple) : list N :=
  write_vec (fun b => [b]) (mv_bytes m) ++ write_vec write_size (map snd (mv_table m)).
Definition mv_load (target : multiple) : parser multiple :=
  get bs <- read_vec get_byte; get sizes <- read_vec read_size; pret (mv_set_element_sizes (MV (mv_table target) bs) sizes).

(** The operations of Spec3.v *)
Definition mv_step (m : multiple) (o : mv_op) : res multiple :=
  match o with
  | MVResize n => mv_resize m n
  | MVResizeV n vals => mv_resize_v m n vals
  | MVEmplace => mv_emplace_back m
  | MVPush vals => mv_push_back m vals
  | MVSet i e v => mv_set_nested m i e v
  | MVBlockSet i e v => mv_block_set m i e v
  | MVRestrictedSet t i e v => mv_block_restricted_set m t i e v
  end.
Definition mv_run (sizes : list nat) (ops : list mv_op) : res multiple := foldM mv_step ops (mv_make sizes).
