(** The list of free slots of the factor oracle builder: a doubly linked ring inside next_ and prev_. *)
From Coq Require Import List NArith ZArith Arith Bool Lia.
From Verif Require Import Base FoModel.
Import ListNotations.
Local Open Scope nat_scope.

Notation nx_at nx a := (nth a nx None).
Notation pv_at pv a := (nth a pv 0).
Definition link (nx : list (option nat)) (pv : list nat) (a b : nat) : Prop := nx_at nx a = Some b /\ pv_at pv b = a.
Fixpoint chain (nx : list (option nat)) (pv : list nat) (a : nat) (l : list nat) (z : nat) : Prop :=
  match l with [] => link nx pv a z | b :: l => link nx pv a b /\ chain nx pv b l z end.
Definition ring (nx : list (option nat)) (pv : list nat) (R : list nat) : Prop :=
  match R with [] => True | f :: l => chain nx pv f l f end.
Lemma chain_app : forall nx pv l1 a b l2 z, chain nx pv a (l1 ++ b :: l2) z <-> chain nx pv a l1 b /\ chain nx pv b l2 z.
Proof. induction l1 as [|c l1 IH]; intros; simpl; [tauto|]. rewrite IH. tauto. Qed.
Lemma ring_rotate : forall nx pv l1 l2, ring nx pv (l1 ++ l2) -> ring nx pv (l2 ++ l1).
Proof.
  intros nx pv [|a l1] l2 H; [rewrite app_nil_r; auto|]. destruct l2 as [|b l2]; [rewrite app_nil_r in H; auto|]. simpl in *. apply chain_app in H. apply chain_app. tauto.
Qed.
Lemma chain_prev : forall nx pv l a z, chain nx pv a l z -> In (pv_at pv z) (a :: l) /\ nx_at nx (pv_at pv z) = Some z.
Proof.
  induction l as [|b l IH]; intros a z H; simpl in H.
  - destruct H as (H1 & H2). rewrite H2. split; [now left|auto].
  - destruct H as (_ & H). apply IH in H. destruct H. split; auto. now right.
Qed.
Lemma chain_ext : forall nx pv nx' pv' l a z, chain nx pv a l z -> (forall y, In y (a :: l) -> nx_at nx' y = nx_at nx y) -> (forall y, In y (l ++ [z]) -> pv_at pv' y = pv_at pv y) -> chain nx' pv' a l z.
Proof.
  induction l as [|b l IH]; intros a z H Hn Hp; simpl in *.
  - destruct H as (H1 & H2). split; [rewrite Hn; auto|rewrite Hp; auto].
  - destruct H as ((H1 & H2) & H). split; [split; [rewrite Hn; auto|rewrite Hp; auto]|]. apply IH; auto.
Qed.
(** close the chain from a with g instead of x *)
Lemma chain_close : forall nx pv nx' pv' l a x g, chain nx pv a l x -> NoDup (a :: l) -> ~ In g l -> let p := pv_at pv x in
  (forall y, In y (a :: l) -> y <> p -> nx_at nx' y = nx_at nx y) -> (forall y, In y l -> pv_at pv' y = pv_at pv y) -> nx_at nx' p = Some g -> pv_at pv' g = p -> chain nx' pv' a l g.
Proof.
  induction l as [|b l IH]; intros a x g H ND Ng p Hn Hp E1 E2; simpl in H.
  - destruct H as (H1 & H2). subst p. rewrite H2 in *. split; auto.
  - destruct H as ((H1 & H2) & H). apply NoDup_cons_iff in ND. destruct ND as (Na & ND'). pose proof (chain_prev _ _ _ _ _ H) as (Ip & _). fold p in Ip. simpl. split.
    + split; [rewrite Hn; auto; [now left|intros ->; contradiction]|rewrite Hp; auto; now left].
    + apply (IH b x g); auto; [intros C; apply Ng; now right|intros; apply Hn; auto; now right|intros; apply Hp; now right].
Qed.
Lemma ring_unlink : forall nx pv x l n, ring nx pv (x :: l) -> NoDup (x :: l) -> nx_at nx x = Some n -> (forall y, In y (x :: l) -> y < length nx /\ y < length pv) ->
  In (pv_at pv x) (x :: l) /\ In n (x :: l) /\ (l = [] <-> n = x) /\
  forall nx' pv', (forall y, y <> x -> nx_at nx' y = if y =? pv_at pv x then Some n else nx_at nx y) -> (forall y, y <> x -> pv_at pv' y = if y =? n then pv_at pv x else pv_at pv y) -> ring nx' pv' l.
Proof.
  intros nx pv x l n H ND Hx Hb. simpl in H. destruct l as [|g l].
  - simpl in H. destruct H as (H1 & H2). rewrite H2. split; [now left|]. split; [left; congruence|]. split; [split; auto; intros; congruence|]. intros. simpl. auto.
  - simpl in H. destruct H as ((H1 & H2) & H). assert (n = g) by congruence. subst g. pose proof (chain_prev _ _ _ _ _ H) as (Ip & _). apply NoDup_cons_iff in ND. destruct ND as (Nx & ND'). pose proof ND' as ND2. apply NoDup_cons_iff in ND2. destruct ND2 as (Nn & _).
    split; [now right|]. split; [right; now left|]. split; [split; [discriminate|intros ->; exfalso; apply Nx; now left]|].
    intros nx' pv' Hn Hp.
    assert (NE : forall y, In y (n :: l) -> y <> x) by (intros y Hy ->; contradiction). simpl.
    apply (chain_close nx pv nx' pv' l n x n H); auto.
    + intros y Hy Ny. rewrite Hn by (now apply NE). now rewrite (proj2 (Nat.eqb_neq _ _)).
    + intros y Hy. rewrite Hp by (apply NE; now right). rewrite (proj2 (Nat.eqb_neq _ _)); auto. intros ->. contradiction.
    + rewrite Hn by (now apply NE). now rewrite Nat.eqb_refl.
    + rewrite Hp by (apply NE; now left). now rewrite Nat.eqb_refl.
Qed.
(** a run of consecutive numbers *)
Lemma chain_seq : forall nx pv k b z, (forall i, b <= i < b + k -> link nx pv i (i + 1)) -> link nx pv (b + k) z -> chain nx pv b (seq (b + 1) k) z.
Proof.
  induction k as [|k IH]; intros b z H Hz; simpl.
  - now rewrite Nat.add_0_r in Hz.
  - split; [apply H; lia|]. replace (S (b + 1)) with (b + 1 + 1) by lia. apply IH; [intros; apply H; lia|]. now replace (b + 1 + k) with (b + S k) by lia.
Qed.
