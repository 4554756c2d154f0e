(** Outcome monad, bounds-checked list access and 64-bit words.
    Nothing here models a particular function of the library; these are the
    conventions of DESIGN.md (undefined behaviour, exceptions and exhausted
    loop fuel are distinct outcomes). *)
From Coq Require Import List NArith ZArith Lia Bool Arith.
From Coq Require Import ZifyBool ZifyNat ZifyN.
Import ListNotations.
Ltac Zify.zify_post_hook ::= Z.div_mod_to_equations.

(** Result of evaluating a C++ expression or statement. *)
Inductive res (A : Type) : Type :=
| Ok (a : A)      (* normal completion *)
| UB              (* undefined behaviour: out-of-bounds access, shift by >= width, ... *)
| Throw           (* a C++ exception *)
| Fuel.           (* the model's loop fuel ran out *)
Arguments Ok {A} a.
Arguments UB {A}.
Arguments Throw {A}.
Arguments Fuel {A}.

Definition bind {A B} (m : res A) (f : A -> res B) : res B :=
  match m with Ok a => f a | UB => UB | Throw => Throw | Fuel => Fuel end.

Declare Scope res_scope.
Delimit Scope res_scope with res.
Notation "'do' x <- m ; k" := (bind m (fun x => k))
  (at level 200, x pattern, m at level 100, k at level 200, right associativity) : res_scope.
Open Scope res_scope.

Definition rmap {A B} (f : A -> B) (m : res A) : res B := bind m (fun a => Ok (f a)).

(** v[i] of a std::vector: out of bounds is undefined behaviour. *)
Definition lget {A} (l : list A) (i : nat) : res A :=
  match nth_error l i with Some a => Ok a | None => UB end.

(** list update, total version *)
Fixpoint upd {A} (l : list A) (i : nat) (v : A) : list A :=
  match l, i with
  | [], _ => []
  | _ :: t, O => v :: t
  | h :: t, S i => h :: upd t i v
  end.

(** v[i] = x of a std::vector: out of bounds is undefined behaviour. *)
Definition lset {A} (l : list A) (i : nat) (v : A) : res (list A) :=
  if i <? length l then Ok (upd l i v) else UB.

(** v.resize(n, d) of a std::vector. *)
Definition lresize {A} (l : list A) (n : nat) (d : A) : list A :=
  firstn n l ++ repeat d (n - length l).

(** Index given as an unsigned machine word (may be huge): checked before conversion. *)
Definition lgetN {A} (l : list A) (i : N) : res A :=
  if (i <? N.of_nat (length l))%N then lget l (N.to_nat i) else UB.

(** Run [f] for [i] in [l] threading a state; stops at the first non-[Ok]. *)
Fixpoint foldM {A S} (f : S -> A -> res S) (l : list A) (s : S) : res S :=
  match l with
  | [] => Ok s
  | a :: l => do s' <- f s a; foldM f l s'
  end.

(** map threading outcomes *)
Fixpoint mapM {A B} (f : A -> res B) (l : list A) : res (list B) :=
  match l with
  | [] => Ok []
  | a :: l => do b <- f a; do bs <- mapM f l; Ok (b :: bs)
  end.

(** ** 64-bit (and narrower) unsigned words *)
Open Scope N_scope.
Definition W64 : N := 2 ^ 64.
Definition wrap (w : N) (x : N) : N := x mod 2 ^ w.
Definition wrap64 (x : N) : N := x mod 2 ^ 64.
Definition wnot (x : N) : N := N.lnot x 64.
(** [x << k] on uint64_t, for k < 64 *)
Definition wshl (x k : N) : N := wrap64 (N.shiftl x k).
(** [x - y] on uint64_t *)
Definition wsub (x y : N) : N := (x + 2 ^ 64 - y) mod 2 ^ 64.

(** Checked shifts of 64-bit words: a count of 64 or more is undefined. *)
Definition shl64 (x k : N) : res N := if k <? 64 then Ok (wshl x k) else UB.
Definition shr64 (x k : N) : res N := if k <? 64 then Ok (N.shiftr x k) else UB.
Close Scope N_scope.

(** ** Lemmas about the conventions *)
Lemma lget_nth : forall A (l : list A) i d, i < length l -> lget l i = Ok (nth i l d).
Proof.
  intros A l i d H. unfold lget.
  destruct (nth_error l i) eqn:E.
  - apply nth_error_nth with (d := d) in E. now rewrite E.
  - apply nth_error_None in E. lia.
Qed.

Lemma lget_Ok : forall A (l : list A) i a, lget l i = Ok a <-> nth_error l i = Some a.
Proof. intros. unfold lget. destruct (nth_error l i); split; congruence. Qed.

Lemma lget_UB : forall A (l : list A) i, lget l i = UB <-> length l <= i.
Proof.
  intros. unfold lget. rewrite <- nth_error_None.
  destruct (nth_error l i); split; congruence.
Qed.

Lemma upd_length : forall A (l : list A) i v, length (upd l i v) = length l.
Proof. induction l; destruct i; simpl; intros; auto. Qed.

Lemma nth_upd : forall A (l : list A) i j v d,
  nth j (upd l i v) d = if (j =? i) && (i <? length l) then v else nth j l d.
Proof.
  induction l; destruct i, j; simpl; intros; auto.
  - now rewrite andb_false_r.
  - rewrite IHl. change (S j =? S i) with (j =? i). change (S i <? S (length l)) with (i <? length l). reflexivity.
Qed.

Lemma nth_error_upd : forall A (l : list A) i j v,
  nth_error (upd l i v) j = if (j =? i) && (i <? length l) then Some v else nth_error l j.
Proof.
  induction l; destruct i, j; simpl; intros; auto.
  - now rewrite andb_false_r.
  - rewrite IHl. change (S j =? S i) with (j =? i). change (S i <? S (length l)) with (i <? length l). reflexivity.
Qed.

Lemma lset_Ok : forall A (l : list A) i v, i < length l -> lset l i v = Ok (upd l i v).
Proof. intros. unfold lset. apply Nat.ltb_lt in H. now rewrite H. Qed.

Lemma lset_inv : forall A (l l' : list A) i v, lset l i v = Ok l' -> i < length l /\ l' = upd l i v.
Proof.
  unfold lset; intros. destruct (i <? length l) eqn:E; [|discriminate].
  apply Nat.ltb_lt in E. inversion H; auto.
Qed.

Lemma lresize_length : forall A (l : list A) n d, length (lresize l n d) = n.
Proof. intros. unfold lresize. rewrite app_length, firstn_length, repeat_length. lia. Qed.

Lemma nth_repeat_lt : forall A (d e : A) n i, i < n -> nth i (repeat d n) e = d.
Proof. induction n; destruct i; simpl; intros; auto; try lia. apply IHn; lia. Qed.

Lemma nth_lresize : forall A (l : list A) n d e i,
  i < n -> nth i (lresize l n d) e = if i <? length l then nth i l e else d.
Proof.
  intros. unfold lresize. destruct (i <? length l) eqn:E.
  - apply Nat.ltb_lt in E. rewrite app_nth1 by (rewrite firstn_length; lia).
    revert n i H E. induction l; intros; simpl in *; [lia|].
    destruct n; [lia|]. destruct i; simpl; auto. apply IHl; lia.
  - apply Nat.ltb_ge in E. rewrite app_nth2 by (rewrite firstn_length; lia).
    rewrite firstn_length. apply nth_repeat_lt. lia.
Qed.

Lemma bind_Ok_inv : forall A B (m : res A) (f : A -> res B) b,
  bind m f = Ok b -> exists a, m = Ok a /\ f a = Ok b.
Proof. intros. destruct m; simpl in H; try discriminate. eauto. Qed.

Lemma foldM_app : forall A S (f : S -> A -> res S) l1 l2 s,
  foldM f (l1 ++ l2) s = bind (foldM f l1 s) (foldM f l2).
Proof.
  induction l1; intros; simpl; auto. destruct (f s a); simpl; auto.
Qed.

Lemma foldM_Ok_fold : forall A S (f : S -> A -> res S) (g : S -> A -> S) (P : S -> Prop) l s,
  P s -> (forall s a, In a l -> P s -> f s a = Ok (g s a) /\ P (g s a)) ->
  foldM f l s = Ok (fold_left g l s) /\ P (fold_left g l s).
Proof.
  induction l; intros; simpl; auto.
  destruct (H0 s a (or_introl eq_refl) H) as [E HP]. rewrite E. simpl.
  apply IHl; auto. intros. apply H0; auto. now right.
Qed.

Lemma nth_ext_len : forall A (l l' : list A) d,
  length l = length l' -> (forall i, i < length l -> nth i l d = nth i l' d) -> l = l'.
Proof. intros. apply nth_ext with (d := d) (d' := d); auto. Qed.

Lemma wrap64_spec : forall x i, N.testbit (wrap64 x) i = andb (N.testbit x i) (N.ltb i 64).
Proof.
  intros. unfold wrap64. destruct (N.ltb_spec i 64).
  - rewrite N.mod_pow2_bits_low by auto. now rewrite andb_true_r.
  - rewrite N.mod_pow2_bits_high by auto. now rewrite andb_false_r.
Qed.

Lemma wrap64_lt : forall x, (wrap64 x < 2 ^ 64)%N.
Proof. intros. apply N.mod_upper_bound. discriminate. Qed.

Lemma wrap64_small : forall x, (x < 2 ^ 64)%N -> wrap64 x = x.
Proof. intros. now apply N.mod_small. Qed.

Lemma testbit_high : forall x w i, (x < 2 ^ w)%N -> (w <= i)%N -> N.testbit x i = false.
Proof.
  intros x w i Hx Hi. rewrite <- (N.mod_small x (2 ^ w)) by exact Hx.
  apply N.mod_pow2_bits_high. exact Hi.
Qed.

Lemma lt_pow2_bits : forall x w, (forall i, (w <= i)%N -> N.testbit x i = false) -> (x < 2 ^ w)%N.
Proof.
  intros x w H. destruct (N.lt_ge_cases x (2 ^ w)) as [L|L]; auto. exfalso.
  assert (x <> 0)%N by (intro; subst; pose proof (N.pow_nonzero 2 w); lia).
  assert (w <= N.log2 x)%N by (apply N.log2_le_pow2; lia).
  specialize (H (N.log2 x) H1). rewrite N.bit_log2 in H by auto. discriminate.
Qed.

(** [x = lo + 2^k * hi]: bits of a concatenation. *)
Lemma testbit_join : forall k lo hi i, (lo < 2 ^ k)%N ->
  N.testbit (lo + 2 ^ k * hi) i = if (i <? k)%N then N.testbit lo i else N.testbit hi (i - k).
Proof.
  intros k lo hi i H. destruct (N.ltb_spec i k).
  - rewrite <- (N.mod_pow2_bits_low (lo + 2 ^ k * hi) k i) by auto.
    f_equal. rewrite N.mul_comm, N.mod_add by (apply N.pow_nonzero; lia).
    now apply N.mod_small.
  - replace i with ((i - k) + k)%N at 1 by lia. rewrite <- N.div_pow2_bits. f_equal.
    rewrite N.mul_comm, N.div_add by (apply N.pow_nonzero; lia).
    rewrite N.div_small by auto. lia.
Qed.

Lemma wnot_spec : forall x i, (i < 64)%N -> N.testbit (wnot x) i = negb (N.testbit x i).
Proof. intros. unfold wnot. now apply N.lnot_spec_low. Qed.

Lemma wshl_spec : forall x k i,
  N.testbit (wshl x k) i = ((i <? 64) && (k <=? i) && N.testbit x (i - k))%N%bool.
Proof.
  intros. unfold wshl. rewrite wrap64_spec, andb_comm.
  destruct (N.ltb_spec i 64); simpl; auto.
  destruct (N.leb_spec k i); simpl.
  - now rewrite N.shiftl_spec_high' by auto.
  - now rewrite N.shiftl_spec_low by auto.
Qed.
