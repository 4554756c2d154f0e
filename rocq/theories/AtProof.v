(** Writing through BitVector::at. *)
From Coq Require Import List NArith ZArith Arith Bool Lia.
From Verif Require Import Base Spec BitVectorModel BitVectorProof BitVectorProof2 SamcDictProof.
Import ListNotations.
Local Open Scope nat_scope.

Lemma reach_at : forall v l, bv_reach v l -> bv_size v = length l /\ forall i, bv_at v i = match nth_error l i with Some b => Ok b | None => Throw end.
Proof.
  intros v l (s & l0 & ops & A1 & A2 & A3). destruct (bv_at_history s l0 ops l A1 A2) as (v1 & E1 & F). destruct (bv_history s l0 ops l A1 A2) as (v2 & E2 & Z & _).
  rewrite A3 in E1, E2. injection E1 as <-. injection E2 as <-. split; auto.
Qed.
Lemma nth_error_set : forall (l : list bool) i b k, i < length l -> nth_error (firstn i l ++ b :: skipn (S i) l) k = if k =? i then Some b else nth_error l k.
Proof.
  induction l as [|x l IH]; intros i b k H; [cbn [length] in H; lia|]. destruct i, k; cbn [firstn skipn app nth_error Nat.eqb]; auto. cbn [length] in H. rewrite <- IH by lia. reflexivity.
Qed.
Lemma reach_at_set : forall v l i x, bv_reach v l -> (length l <= i -> bv_at_set v i x = Throw) /\
  (i < length l -> exists v', bv_at_set v i x = Ok v' /\ bv_size v' = length l /\ forall j, bv_at v' j = if j =? i then Ok x else bv_at v j).
Proof.
  intros v l i x R. destruct (reach_at v l R) as [Z A]. unfold bv_at_set. rewrite Z. split; intros H; destruct (Nat.leb_spec (length l) i) as [Q|Q]; auto; try lia.
  destruct (reach_set v l i x R Q) as (v' & E & R'). exists v'. split; auto. destruct (reach_at _ _ R') as [Z' A']. rewrite Z'. split.
  - rewrite app_length, firstn_length. cbn [length]. rewrite skipn_length. lia.
  - intros j. rewrite A', A, nth_error_set by exact Q. destruct (j =? i); reflexivity.
Qed.
