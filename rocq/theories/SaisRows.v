(** The buckets of SA-IS as rows of a concatenated list. *)
From Coq Require Import List NArith ZArith Arith Bool Lia Permutation Sorted.
From Verif Require Import Base SuffixModel.
Import ListNotations.
Local Open Scope nat_scope.

(** ** Rows *)
(** a bucket with [l] put from the left, [s] put from the right *)
Definition row (l s : list nat) (k : nat) : list (option nat) := map Some l ++ repeat None (k - length l - length s) ++ map Some s.
Lemma row_length : forall l s k, length l + length s <= k -> length (row l s k) = k.
Proof. intros. unfold row. rewrite !app_length, !map_length, repeat_length. lia. Qed.
Lemma upd_app1 : forall A (a b : list A) i x, i < length a -> upd (a ++ b) i x = upd a i x ++ b.
Proof. induction a as [|y a IH]; intros b i x H; [cbn [length] in H; lia|]. destruct i; [reflexivity|]. cbn [length] in H. cbn [app upd]. rewrite IH by lia. reflexivity. Qed.
Lemma upd_app2 : forall A (a b : list A) i x, upd (a ++ b) (length a + i) x = a ++ upd b i x.
Proof. induction a as [|y a IH]; intros b i x; [reflexivity|]. cbn [length Nat.add app upd]. rewrite IH. reflexivity. Qed.
Lemma row_put_l : forall l s k id, length l + length s < k -> upd (row l s k) (length l) (Some id) = row (l ++ [id]) s k /\ nth (length l) (row l s k) (Some 0) = None.
Proof.
  intros l s k id H. unfold row. replace (k - length l - length s) with (S (k - length (l ++ [id]) - length s)) by (rewrite app_length; cbn [length]; lia).
  generalize (k - length (l ++ [id]) - length s). intros g. cbn [repeat]. split.
  - replace (length l) with (length (map Some l) + 0) by (rewrite map_length; lia). rewrite upd_app2. cbn [app upd]. rewrite map_app, <- app_assoc. reflexivity.
  - rewrite app_nth2 by (rewrite map_length; lia). rewrite map_length, Nat.sub_diag. reflexivity.
Qed.
Lemma repeat_snoc : forall A (x : A) g, repeat x (S g) = repeat x g ++ [x].
Proof. intros. cbn [repeat]. apply repeat_cons. Qed.
Lemma row_put_s : forall l s k id, length l + length s < k -> upd (row l s k) (k - 1 - length s) (Some id) = row l (id :: s) k /\ nth (k - 1 - length s) (row l s k) (Some 0) = None.
Proof.
  intros l s k id H. unfold row. replace (k - length l - length s) with (S (k - length l - length (id :: s))) by (cbn [length]; lia).
  remember (k - length l - length (id :: s)) as g eqn:G. rewrite repeat_snoc, <- app_assoc.
  replace (k - 1 - length s) with (length (map Some l) + (length (repeat (@None nat) g) + 0)) by (rewrite map_length, repeat_length; cbn [length] in G; lia).
  split.
  - rewrite upd_app2. f_equal. rewrite upd_app2. reflexivity.
  - rewrite app_nth2 by lia. rewrite app_nth2 by lia. match goal with |- nth ?i _ _ = _ => replace i with 0 by lia end. reflexivity.
Qed.

(** ** Concatenations *)
Lemma seq_split : forall m c, c < m -> seq 0 m = seq 0 c ++ c :: seq (S c) (m - S c).
Proof. intros m c H. replace m with (c + S (m - S c)) at 1 by lia. rewrite seq_app. reflexivity. Qed.
Lemma nth_map_seq : forall (A : Type) (f : nat -> A) k i d, i < k -> nth i (map f (seq 0 k)) d = f i.
Proof. intros A f k i d H. rewrite nth_indep with (d' := f 0) by (rewrite map_length, seq_length; exact H). rewrite (map_nth f), seq_nth by exact H. reflexivity. Qed.
Section Concat.
Variable cnt : nat -> nat.
Definition start (c : nat) : nat := list_sum (map cnt (seq 0 c)).
Lemma start_S : forall c, start (S c) = start c + cnt c.
Proof. intros. unfold start. rewrite seq_S, map_app, list_sum_app. cbn. lia. Qed.
Lemma start_mono : forall a b, a <= b -> start a <= start b.
Proof. intros a b H. induction H; [lia|]. rewrite start_S. lia. Qed.
Variable m : nat.
Definition flat (f : nat -> list (option nat)) : list (option nat) := concat (map f (seq 0 m)).
Definition fits (f : nat -> list (option nat)) : Prop := forall c, c < m -> length (f c) = cnt c.
Lemma concat_len : forall f k, (forall c, c < k -> length (f c) = cnt c) -> length (concat (map f (seq 0 k)) : list (option nat)) = start k.
Proof.
  intros f. induction k as [|k IH]; intros H; [reflexivity|]. rewrite seq_S, map_app, concat_app, app_length, IH, start_S by (intros; apply H; lia). cbn [Nat.add map concat]. rewrite app_nil_r, H by lia. reflexivity.
Qed.
Lemma flat_length : forall f, fits f -> length (flat f) = start m.
Proof. intros. apply concat_len. auto. Qed.
Lemma flat_split : forall f c, fits f -> c < m -> exists a b, flat f = a ++ f c ++ b /\ length a = start c /\
  forall f', (forall d, d < m -> d <> c -> f' d = f d) -> flat f' = a ++ f' c ++ b.
Proof.
  intros f c F H. exists (concat (map f (seq 0 c))), (concat (map f (seq (S c) (m - S c)))). unfold flat. rewrite (seq_split m c H). split; [|split].
  - rewrite map_app, concat_app. reflexivity.
  - apply concat_len. intros. apply F. lia.
  - intros f' E. rewrite map_app, concat_app. cbn [map concat].
    rewrite (map_ext_in f' f (seq 0 c)), (map_ext_in f' f (seq (S c) _)); auto; intros d D; apply in_seq in D; apply E; lia.
Qed.
Lemma flat_nth : forall f c k d, fits f -> c < m -> k < cnt c -> nth (start c + k) (flat f) d = nth k (f c) d.
Proof.
  intros f c k d F H K. destruct (flat_split f c F H) as (a & b & E & L & _). rewrite E, app_nth2 by lia. replace (start c + k - length a) with k by lia. rewrite app_nth1; [reflexivity|]. rewrite F; auto.
Qed.
Lemma flat_upd : forall f f' c k x, fits f -> c < m -> k < cnt c -> f' c = upd (f c) k x -> (forall d, d < m -> d <> c -> f' d = f d) -> upd (flat f) (start c + k) x = flat f'.
Proof.
  intros f f' c k x F H K U E. destruct (flat_split f c F H) as (a & b & E1 & L & E2). rewrite (E2 f' E), U, E1, <- L, upd_app2, upd_app1 by (rewrite F; auto). reflexivity.
Qed.
Lemma flat_index : forall i, i < start m -> exists c k, c < m /\ k < cnt c /\ i = start c + k.
Proof.
  induction m as [|m' IH]; intros i H; [unfold start in H; cbn in H; lia|]. rewrite start_S in H. destruct (lt_dec i (start m')) as [L|L].
  - destruct (IH i L) as (c & k & A & B & C). exists c, k. split; [lia|auto].
  - exists m', (i - start m'). split; [lia|]. split; lia.
Qed.
End Concat.
Lemma flat_ext : forall m f g, (forall c, c < m -> f c = g c) -> flat m f = flat m g.
Proof. intros m f g H. unfold flat. f_equal. apply map_ext_in. intros c C. apply in_seq in C. apply H. lia. Qed.

(** ** The numbers in a list of options *)
Definition somes (l : list (option nat)) : list nat := flat_map (fun x => match x with Some p => [p] | None => [] end) l.
Lemma somes_app : forall a b, somes (a ++ b) = somes a ++ somes b.
Proof. intros. unfold somes. apply flat_map_app. Qed.
Lemma somes_map : forall l, somes (map Some l) = l.
Proof. induction l as [|x l IH]; [reflexivity|]. cbn. rewrite <- IH at 2. reflexivity. Qed.
Lemma somes_none : forall g, somes (repeat None g) = [].
Proof. induction g; auto. Qed.
Lemma somes_row : forall l s k, somes (row l s k) = l ++ s.
Proof. intros. unfold row. rewrite !somes_app, !somes_map, somes_none. reflexivity. Qed.
Lemma in_somes : forall p l, In p (somes l) <-> In (Some p) l.
Proof.
  intros p l. unfold somes. rewrite in_flat_map. split.
  - intros ([q|] & A & B); [|destruct B]. destruct B as [->|[]]. exact A.
  - intros A. exists (Some p). split; [exact A|left; reflexivity].
Qed.
Lemma somes_flat : forall m f, somes (flat m f) = concat (map (fun c => somes (f c)) (seq 0 m)).
Proof. intros m f. unfold flat. generalize (seq 0 m). induction l as [|c l IH]; [reflexivity|]. cbn [map concat]. rewrite somes_app, IH. reflexivity. Qed.

(** ** Sorted lists *)
Section Sorted.
Variables (A : Type) (lt : A -> A -> Prop).
Lemma ss_app : forall a b, StronglySorted lt a -> StronglySorted lt b -> (forall x y, In x a -> In y b -> lt x y) -> StronglySorted lt (a ++ b).
Proof.
  induction a as [|x a IH]; intros b Sa Sb H; [exact Sb|]. inversion Sa; subst. cbn [app]. constructor.
  - apply IH; auto. intros; apply H; auto. right; auto.
  - apply Forall_app. split; auto. apply Forall_forall. intros y Y. apply H; [left; reflexivity|exact Y].
Qed.
Lemma ss_app_inv : forall a b, StronglySorted lt (a ++ b) -> StronglySorted lt a /\ StronglySorted lt b /\ (forall x y, In x a -> In y b -> lt x y).
Proof.
  induction a as [|x a IH]; intros b H; [split; [constructor|split; [exact H|intros x y []]]|]. cbn [app] in H. inversion H; subst. apply IH in H2. destruct H2 as (P & Q & R).
  apply Forall_app in H3. destruct H3 as [F1 F2]. split; [constructor; auto|]. split; auto. intros y z [<-|Y] Z; [|auto]. exact (proj1 (Forall_forall _ _) F2 z Z).
Qed.
Lemma ss_nodup : (forall x, ~ lt x x) -> forall l, StronglySorted lt l -> NoDup l.
Proof.
  intros I. induction 1; constructor; auto. intros X. exact (I a (proj1 (Forall_forall _ _) H0 a X)).
Qed.
Lemma ss_filter_split : forall (f : A -> bool) l, StronglySorted lt l -> (forall x y, In x l -> In y l -> lt x y -> f y = true -> f x = true) -> l = filter f l ++ filter (fun x => negb (f x)) l.
Proof.
  intros f. induction 1; intros D; [reflexivity|]. cbn [filter]. destruct (f a) eqn:E; cbn [negb].
  - cbn [app]. rewrite <- IHStronglySorted; auto. intros x y X Y. apply D; right; auto.
  - assert (Z : forall x, In x l -> f x = false). { intros x X. destruct (f x) eqn:Q; auto. rewrite (D a x) in E; auto; [left; auto|right; auto|]. exact (proj1 (Forall_forall _ _) H0 x X). }
    assert (F1 : filter f l = []). { clear -Z. induction l as [|x l IH]; [reflexivity|]. cbn [filter]. rewrite Z by (left; auto). apply IH. intros; apply Z; right; auto. }
    assert (F2 : filter (fun x => negb (f x)) l = l). { clear -Z. induction l as [|x l IH]; [reflexivity|]. cbn [filter]. rewrite Z by (left; auto). cbn [negb]. f_equal. apply IH. intros; apply Z; right; auto. }
    rewrite F1, F2. reflexivity.
Qed.
Lemma ss_filter : forall (f : A -> bool) l, StronglySorted lt l -> StronglySorted lt (filter f l).
Proof.
  intros f. induction 1; [constructor|]. cbn [filter]. destruct (f a); auto. constructor; auto. apply Forall_forall. intros x X. apply filter_In in X. exact (proj1 (Forall_forall _ _) H0 x (proj1 X)).
Qed.
Lemma ss_ext : forall (lt' : A -> A -> Prop) l, (forall x y, In x l -> In y l -> lt x y -> lt' x y) -> StronglySorted lt l -> StronglySorted lt' l.
Proof.
  intros lt' l H S. induction S; constructor. - apply IHS. intros; apply H; auto; right; auto.
  - apply Forall_forall. intros x X. apply H; [left; auto|right; auto|]. exact (proj1 (Forall_forall _ _) H0 x X).
Qed.
Lemma ss_nth : forall l d, StronglySorted lt l -> forall i j, i < j -> j < length l -> lt (nth i l d) (nth j l d).
Proof.
  intros l d. induction 1; intros i j I J; [cbn [length] in J; lia|]. cbn [length] in J. destruct j; [lia|]. destruct i.
  - cbn [nth]. apply (proj1 (Forall_forall _ _) H0). apply nth_In. lia.
  - cbn [nth]. apply IHStronglySorted; lia.
Qed.
(** insertion sort *)
Lemma sort_exists : (forall x y, {lt x y} + {~ lt x y}) -> (forall x y z, lt x y -> lt y z -> lt x z) -> forall l, NoDup l -> (forall x y, In x l -> In y l -> x <> y -> lt x y \/ lt y x) ->
  exists l', Permutation l l' /\ StronglySorted lt l'.
Proof.
  intros D T. induction l as [|x l IH]; intros N H; [exists []; split; constructor|]. inversion N; subst.
  destruct IH as (l' & P & S); auto. { intros; apply H; auto; right; auto. }
  exists (filter (fun y => if D y x then true else false) l' ++ x :: filter (fun y => negb (if D y x then true else false)) l').
  assert (E : l' = filter (fun y => if D y x then true else false) l' ++ filter (fun y => negb (if D y x then true else false)) l').
  { apply ss_filter_split; auto. intros a b _ _ L. destruct (D b x); [|discriminate]. intros _. destruct (D a x) as [|Q]; auto. exfalso. apply Q. eapply T; eauto. }
  split.
  - rewrite P. rewrite E at 1. apply Permutation_middle.
  - apply ss_app; [apply ss_filter; auto| |].
    + constructor; [apply ss_filter; auto|]. apply Forall_forall. intros y Y. apply filter_In in Y. destruct Y as [Y Q]. destruct (D y x) as [|Q']; [discriminate|].
      assert (Y' : In y l) by (apply (Permutation_in _ (Permutation_sym P)); auto). destruct (H x y) as [|C]; auto; [left; auto|right; auto|congruence|contradiction].
    + intros a b A0 B0. apply filter_In in A0. destruct A0 as [A0 Q]. destruct (D a x) as [Lx|]; [|discriminate]. destruct B0 as [<-|B0]; auto. apply filter_In in B0. destruct B0 as [B0 Q2]. destruct (D b x); [discriminate|].
      assert (B' : In b l) by (apply (Permutation_in _ (Permutation_sym P)); auto). destruct (H x b) as [C|C]; auto; [left; auto|right; auto|congruence| |contradiction]. eapply T; eauto.
Qed.
End Sorted.
