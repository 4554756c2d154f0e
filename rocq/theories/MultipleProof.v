(** Proofs about MultipleModel.v *)
From Coq Require Import List NArith ZArith Lia Bool Arith.
From Verif Require Import Base Spec3 StreamModel StreamProof MultipleModel.
Import ListNotations.
Local Open Scope nat_scope.

(** *** Byte strings *)
Lemma le_bytes_app : forall m k x, le_bytes (m + k) x = le_bytes m x ++ le_bytes k (x / 256 ^ N.of_nat m).
Proof.
  induction m; intros k x.
  - change (256 ^ N.of_nat 0)%N with 1%N. rewrite N.div_1_r. reflexivity.
  - cbn [Nat.add le_bytes app]. rewrite IHm. do 2 f_equal. rewrite Nat2N.inj_succ, N.pow_succ_r', N.div_div by (try apply N.pow_nonzero; lia).
    reflexivity.
Qed.

Lemma le_bytes_mod : forall m x, le_bytes m (x mod 256 ^ N.of_nat m) = le_bytes m x.
Proof.
  induction m; intros x; [reflexivity|]. cbn [le_bytes]. rewrite Nat2N.inj_succ, N.pow_succ_r'.
  rewrite N.mod_mul_r by (try apply N.pow_nonzero; lia). f_equal.
  - rewrite N.mul_comm, N.mod_add by lia. apply N.mod_mod. lia.
  - rewrite <- (IHm (x / 256)%N). f_equal. rewrite N.mul_comm, N.div_add by lia. rewrite (N.div_small (x mod 256)); [reflexivity|apply N.mod_lt; lia].
Qed.

Lemma le_bytes_0 : forall m, le_bytes m 0 = repeat 0%N m.
Proof. induction m; [reflexivity|]. cbn [le_bytes repeat]. change (0 mod 256)%N with 0%N. change (0 / 256)%N with 0%N. now rewrite IHm. Qed.

Lemma low_bytes_from_bytes : forall m k v x, le_bytes (m + k) (low_bytes_from m v x) = le_bytes m v ++ le_bytes k (x / 256 ^ N.of_nat m).
Proof.
  intros. rewrite le_bytes_app. unfold low_bytes_from.
  assert (P : (256 ^ N.of_nat m)%N <> 0%N) by (apply N.pow_nonzero; lia). f_equal.
  - rewrite <- le_bytes_mod. rewrite N.mul_comm, N.mod_add by auto. rewrite N.mod_mod by auto. apply le_bytes_mod.
  - f_equal. rewrite N.mul_comm, N.div_add by auto. rewrite N.div_small by (now apply N.mod_lt). lia.
Qed.

Lemma low_bytes_from_small : forall m v x s, m <= s -> (x < 256 ^ N.of_nat s)%N -> (low_bytes_from m v x < 256 ^ N.of_nat s)%N.
Proof.
  intros m v x s H Hx. unfold low_bytes_from. replace s with (m + (s - m)) in * by lia.
  rewrite Nat2N.inj_add, N.pow_add_r in *. set (P := (256 ^ N.of_nat m)%N) in *. set (Q := (256 ^ N.of_nat (s - m))%N) in *.
  assert (P0 : P <> 0%N) by (apply N.pow_nonzero; lia).
  pose proof (N.mod_lt v P P0). assert (x / P < Q)%N by (apply N.div_lt_upper_bound; auto). nia.
Qed.

Lemma upd_middle : forall A (l1 : list A) x l2 y n, n = length l1 -> upd (l1 ++ x :: l2) n y = l1 ++ y :: l2.
Proof. intros A l1 x l2 y n ->. induction l1; simpl; congruence. Qed.

Lemma write_spec : forall w A M C v, length M = w -> w <= 8 ->
  mv_write_bytes (A ++ M ++ C) (length A) w v = Ok (A ++ le_bytes w v ++ C).
Proof.
  unfold mv_write_bytes. induction w; intros A M C v L H.
  - destruct M; [|discriminate]. reflexivity.
  - destruct (exists_last (l := M)) as (M' & x & ->); [destruct M; discriminate|]. rewrite app_length in L. simpl in L.
    rewrite seq_S, foldM_app. rewrite <- (app_assoc M'). rewrite IHw by lia. cbn [bind foldM app Nat.add].
    unfold shr64. destruct (N.ltb_spec (N.of_nat (w * 8)) 64); [|lia]. cbn [bind].
    rewrite app_assoc. rewrite lset_Ok by (rewrite !app_length, le_length; simpl; lia). cbn [bind].
    rewrite upd_middle by (rewrite app_length, le_length; lia). rewrite <- app_assoc. apply f_equal, f_equal.
    replace (S w) with (w + 1) by lia. rewrite le_bytes_app. rewrite <- app_assoc. do 2 f_equal.
    change (le_bytes 1 (v / 256 ^ N.of_nat w)) with [(v / 256 ^ N.of_nat w mod 256)%N]. cbn [app]. do 2 f_equal.
    rewrite N.shiftr_div_pow2. replace (N.of_nat (w * 8)) with (8 * N.of_nat w)%N by lia. now rewrite N.pow_mul_r.
Qed.

Lemma lor_shift_add : forall a b k, (a < 2 ^ k)%N -> N.lor a (N.shiftl b k) = (a + 2 ^ k * b)%N.
Proof.
  intros a b k H. apply N.bits_inj. intros i. rewrite N.lor_spec, testbit_join by auto. destruct (N.ltb_spec i k).
  - rewrite N.shiftl_spec_low by auto. apply orb_false_r.
  - rewrite N.shiftl_spec_high' by auto. rewrite (testbit_high a k i) by auto. reflexivity.
Qed.

Lemma read_spec : forall w A y C, w <= 8 ->
  mv_read_bytes (A ++ le_bytes w y ++ C) (length A) w = Ok (y mod 256 ^ N.of_nat w)%N.
Proof.
  unfold mv_read_bytes. induction w; intros A y C H.
  - change (256 ^ N.of_nat 0)%N with 1%N. now rewrite N.mod_1_r.
  - rewrite seq_S, foldM_app. replace (S w) with (w + 1) by lia. rewrite le_bytes_app, <- app_assoc. rewrite IHw by lia.
    cbn [bind foldM Nat.add]. rewrite (lget_nth _ _ _ 0%N) by (rewrite !app_length, !le_length; lia). cbn [bind].
    rewrite app_nth2 by lia. replace (length A + w - length A) with w by lia. rewrite app_nth2 by (rewrite le_length; lia).
    rewrite le_length, Nat.sub_diag. set (q := (y / 256 ^ N.of_nat w)%N). cbn [le_bytes app nth].
    unfold shl64. destruct (N.ltb_spec (N.of_nat (w * 8)) 64); [|lia]. cbn [bind]. apply f_equal.
    assert (E8 : (256 ^ N.of_nat w)%N = (2 ^ N.of_nat (w * 8))%N).
    { replace (N.of_nat (w * 8)) with (8 * N.of_nat w)%N by lia. now rewrite N.pow_mul_r. }
    pose proof (N.mod_lt q 256 ltac:(lia)).
    rewrite Nat2N.inj_add. change (N.of_nat 1) with 1%N. rewrite N.pow_add_r, N.pow_1_r.
    rewrite N.mod_mul_r by (try apply N.pow_nonzero; lia). fold q.
    unfold wshl. rewrite wrap64_small.
    + rewrite lor_shift_add.
      * now rewrite E8.
      * rewrite E8. apply N.mod_lt. apply N.pow_nonzero. lia.
    + rewrite N.shiftl_mul_pow2. rewrite <- E8.
      assert (256 * 256 ^ N.of_nat w <= 2 ^ 64)%N.
      { rewrite E8. change 256%N with (2 ^ 8)%N. rewrite <- N.pow_add_r. apply N.pow_le_mono_r; lia. }
      assert (P0 : (256 ^ N.of_nat w)%N <> 0%N) by (apply N.pow_nonzero; lia). nia.
Qed.

(** *** Records *)
Definition fields_ok (sizes : list nat) (r : list N) : Prop := Forall2 (fun s x => (x < 256 ^ N.of_nat s)%N) sizes r.
Fixpoint enc_rec (sizes : list nat) (r : list N) : list N :=
  match sizes, r with s :: sizes, x :: r => le_bytes s x ++ enc_rec sizes r | _, _ => [] end.
Definition enc (sizes : list nat) (l : list (list N)) : list N := concat (map (enc_rec sizes) l).

Lemma Forall2_len : forall A B (P : A -> B -> Prop) l l', Forall2 P l l' -> length l = length l'.
Proof. induction 1; simpl; auto. Qed.

Lemma enc_rec_length : forall sizes r, fields_ok sizes r -> length (enc_rec sizes r) = list_sum sizes.
Proof. induction 1; cbn [enc_rec list_sum fold_right length]; auto. rewrite app_length, le_length. fold (list_sum l). lia. Qed.

Lemma enc_length : forall sizes l, Forall (fields_ok sizes) l -> length (enc sizes l) = length l * list_sum sizes.
Proof.
  unfold enc. induction 1; cbn [map concat length]; auto. rewrite app_length, IHForall, enc_rec_length by auto. lia.
Qed.

Lemma enc_app : forall sizes l1 l2, enc sizes (l1 ++ l2) = enc sizes l1 ++ enc sizes l2.
Proof. intros. unfold enc. rewrite map_app. apply concat_app. Qed.

Lemma record_ok : forall sizes vals, fields_ok sizes (record sizes vals).
Proof.
  induction sizes; intros [|v vals]; constructor; auto.
  - assert ((256 ^ N.of_nat a)%N <> 0%N) by (apply N.pow_nonzero; lia). lia.
  - apply IHsizes.
  - apply N.mod_lt. apply N.pow_nonzero. lia.
  - apply IHsizes.
Qed.

Lemma enc_record_zero : forall sizes, enc_rec sizes (record sizes []) = repeat 0%N (list_sum sizes).
Proof.
  induction sizes; [reflexivity|]. cbn [record enc_rec list_sum fold_right]. fold (list_sum sizes).
  rewrite IHsizes, le_bytes_0, repeat_app. reflexivity.
Qed.

(** Splitting a record at a field *)
Lemma enc_rec_split : forall sizes r e, fields_ok sizes r -> e < length sizes ->
  enc_rec sizes r = enc_rec (firstn e sizes) (firstn e r) ++ le_bytes (nth e sizes 0%nat) (nth e r 0%N) ++ enc_rec (skipn (S e) sizes) (skipn (S e) r) /\
  length (enc_rec (firstn e sizes) (firstn e r)) = list_sum (firstn e sizes).
Proof.
  intros sizes r e H. revert e. induction H; intros e He; [simpl in He; lia|].
  destruct e; cbn [firstn skipn nth enc_rec app length list_sum fold_right].
  - split; reflexivity.
  - destruct (IHForall2 e) as (E & L); [simpl in He; lia|]. split.
    + rewrite E at 1. rewrite <- app_assoc. reflexivity.
    + rewrite app_length, le_length, L. reflexivity.
Qed.

Lemma fields_change : forall sizes r e f, fields_ok sizes r -> (forall x, (x < 256 ^ N.of_nat (nth e sizes 0%nat))%N -> (f x < 256 ^ N.of_nat (nth e sizes 0%nat))%N) ->
  fields_ok sizes (change_at r e f).
Proof.
  intros sizes r e f H. revert e. unfold change_at. induction H; intros e Hf; [destruct e; constructor|].
  destruct e; cbn [nth_error firstn skipn app] in *; [constructor; auto|]. specialize (IHForall2 e Hf).
  destruct (nth_error l' e); cbn [firstn skipn app]; constructor; auto.
Qed.

Lemma change_at_length : forall A (l : list A) i f, length (change_at l i f) = length l.
Proof.
  intros. unfold change_at. destruct (nth_error l i) eqn:E; auto.
  assert (i < length l) by (apply nth_error_Some; congruence). rewrite app_length, firstn_length. cbn [length]. rewrite skipn_length. lia.
Qed.

Lemma change_at_split : forall A (l : list A) i f d, i < length l -> change_at l i f = firstn i l ++ f (nth i l d) :: skipn (S i) l.
Proof. intros. unfold change_at. rewrite (nth_error_nth' l d) by auto. reflexivity. Qed.

Lemma list_split : forall A (l : list A) i d, i < length l -> l = firstn i l ++ nth i l d :: skipn (S i) l.
Proof.
  induction l; intros [|i] d H; simpl in H; try lia; cbn [firstn skipn nth app]; auto. f_equal. apply IHl. lia.
Qed.

Lemma change_at_cons : forall A (a : A) l i f, change_at (a :: l) (S i) f = a :: change_at l i f.
Proof. intros. unfold change_at. cbn [nth_error]. destruct (nth_error l i); reflexivity. Qed.

Lemma enc_rec_change : forall sizes r e f, fields_ok sizes r -> e < length sizes ->
  enc_rec sizes (change_at r e f) = enc_rec (firstn e sizes) (firstn e r) ++ le_bytes (nth e sizes 0%nat) (f (nth e r 0%N)) ++ enc_rec (skipn (S e) sizes) (skipn (S e) r).
Proof.
  intros sizes r e f H. revert e. induction H; intros e He; [simpl in He; lia|].
  destruct e; [reflexivity|]. rewrite change_at_cons. change (skipn (S (S e)) (x :: l)) with (skipn (S e) l).
  change (skipn (S (S e)) (y :: l')) with (skipn (S e) l'). cbn [firstn nth enc_rec app].
  rewrite IHForall2 by (simpl in He; lia). rewrite <- app_assoc. reflexivity.
Qed.

Section Table.
Variable sizes : list nat.
Hypothesis Hs : Forall (fun s => s <= 8) sizes.
Hypothesis Hpos : 0 < list_sum sizes.
Let B := list_sum sizes.

Fixpoint positions (p : nat) (l : list nat) : list (nat * nat) := match l with [] => [] | s :: r => (p, s) :: positions (p + s) r end.
Lemma mv_append_positions : forall l t p, mv_append t p l = t ++ positions p l.
Proof. induction l; intros; cbn [mv_append positions]; [now rewrite app_nil_r|]. rewrite IHl, <- app_assoc. reflexivity. Qed.
Lemma positions_length : forall l p, length (positions p l) = length l.
Proof. induction l; intros; simpl; auto. Qed.
Lemma positions_nth : forall l p e, e < length l -> nth e (positions p l) (0, 0) = (p + list_sum (firstn e l), nth e l 0).
Proof.
  induction l; intros p e H; simpl in H; [lia|]. destruct e; cbn [positions nth firstn list_sum fold_right]; [f_equal; lia|].
  rewrite IHl by lia. fold (list_sum (firstn e l)). f_equal. lia.
Qed.

Definition table := positions 0 sizes.
Definition repr (m : multiple) (l : list (list N)) : Prop := mv_table m = table /\ mv_bytes m = enc sizes l /\ Forall (fields_ok sizes) l.

Lemma sizes_nonempty : 0 < length sizes.
Proof. destruct sizes; simpl in *; lia. Qed.

Lemma table_get : forall e, e < length sizes -> lget table e = Ok (list_sum (firstn e sizes), nth e sizes 0%nat).
Proof. intros. unfold table. rewrite (lget_nth _ _ _ (0, 0)) by (rewrite positions_length; auto). rewrite positions_nth by auto. reflexivity. Qed.

Lemma list_sum_last : forall l, 0 < length l -> list_sum (firstn (length l - 1) l) + nth (length l - 1) l 0 = list_sum l.
Proof.
  induction l; intros H; simpl in H; [lia|]. destruct l; [simpl; lia|]. cbn [length] in *. rewrite Nat.sub_succ, Nat.sub_0_r in *.
  cbn [firstn nth list_sum fold_right] in *. assert (0 < S (length l)) as X by lia. specialize (IHl X). unfold list_sum in *. lia.
Qed.

Lemma repr_block_size : forall m l, repr m l -> mv_block_size m = Ok B.
Proof.
  intros m l (T & _). unfold mv_block_size. rewrite T. unfold table at 2. rewrite positions_length. pose proof sizes_nonempty.
  rewrite table_get by lia. cbn [bind fst snd]. f_equal. now apply list_sum_last.
Qed.
Lemma repr_offset : forall m l i, repr m l -> mv_offset m i = Ok (i * B).
Proof. intros. unfold mv_offset. rewrite (repr_block_size m l) by auto. reflexivity. Qed.
Lemma repr_size : forall m l, repr m l -> mv_size m = Ok (length l).
Proof.
  intros m l R. unfold mv_size. rewrite (repr_block_size m l) by auto. cbn [bind]. destruct R as (T & E & F).
  destruct (Nat.eqb_spec B 0); [unfold B in *; lia|]. rewrite E, enc_length by auto. fold B. now rewrite Nat.div_mul.
Qed.

(** The bytes around field [e] of record [i] *)
Lemma repr_split : forall m l i e, repr m l -> i < length l -> e < length sizes ->
  exists P Q, length P = i * B + list_sum (firstn e sizes) /\ mv_bytes m = P ++ le_bytes (nth e sizes 0%nat) (nth e (nth i l []) 0%N) ++ Q /\
    forall f, enc sizes (change_at l i (fun r => change_at r e f)) = P ++ le_bytes (nth e sizes 0%nat) (f (nth e (nth i l []) 0%N)) ++ Q.
Proof.
  intros m l i e (T & E & F) Hi He.
  assert (Fi : fields_ok sizes (nth i l [])). { rewrite Forall_forall in F. apply F. now apply nth_In. }
  assert (Ff : Forall (fields_ok sizes) (firstn i l)). { rewrite (list_split _ l i [] Hi) in F. apply Forall_app in F. tauto. }
  destruct (enc_rec_split sizes (nth i l []) e Fi He) as (E1 & L1).
  exists (enc sizes (firstn i l) ++ enc_rec (firstn e sizes) (firstn e (nth i l []))),
         (enc_rec (skipn (S e) sizes) (skipn (S e) (nth i l [])) ++ enc sizes (skipn (S i) l)).
  split; [|split].
  - rewrite app_length, enc_length by auto. rewrite L1, firstn_length. fold B. replace (Nat.min i (length l)) with i by lia. reflexivity.
  - rewrite E. rewrite (list_split _ l i [] Hi) at 1. rewrite enc_app. unfold enc at 2. cbn [map concat]. fold (enc sizes (skipn (S i) l)).
    rewrite E1 at 1. rewrite <- !app_assoc. reflexivity.
  - intros f. rewrite (change_at_split _ l i _ [] Hi). rewrite enc_app. unfold enc at 2. cbn [map concat]. fold (enc sizes (skipn (S i) l)).
    rewrite enc_rec_change by auto. rewrite <- !app_assoc. reflexivity.
Qed.

Lemma size_le_8 : forall e, nth e sizes 0%nat <= 8.
Proof.
  intros e. destruct (Nat.lt_ge_cases e (length sizes)) as [H|H]; [|rewrite nth_overflow by auto; lia].
  rewrite Forall_forall in Hs. apply Hs. now apply nth_In.
Qed.

Lemma change_fields : forall l i e f, Forall (fields_ok sizes) l ->
  (forall x, (x < 256 ^ N.of_nat (nth e sizes 0%nat))%N -> (f x < 256 ^ N.of_nat (nth e sizes 0%nat))%N) ->
  Forall (fields_ok sizes) (change_at l i (fun r => change_at r e f)).
Proof.
  intros l i e f F Hf. unfold change_at at 1. destruct (nth_error l i) eqn:E; auto.
  assert (Hi : i < length l) by (apply nth_error_Some; congruence).
  rewrite (list_split _ l i [] Hi) in F. apply Forall_app in F. destruct F as (F1 & F2). inversion F2.
  apply Forall_app. split; auto. constructor; auto.
  apply (nth_error_nth l i []) in E. rewrite E in *. now apply fields_change.
Qed.

Lemma write_field : forall m l i e w v, repr m l -> i < length l -> e < length sizes -> w <= nth e sizes 0%nat ->
  exists bs, mv_write_bytes (mv_bytes m) (i * B + list_sum (firstn e sizes)) w v = Ok bs /\
    repr (MV (mv_table m) bs) (change_at l i (fun r => change_at r e (low_bytes_from w v))).
Proof.
  intros m l i e w v R Hi He Hw. destruct (repr_split m l i e R Hi He) as (P & Q & LP & Eb & Ef). pose proof (size_le_8 e).
  replace (nth e sizes 0%nat) with (w + (nth e sizes 0%nat - w)) in Eb by lia. rewrite le_bytes_app, <- app_assoc in Eb.
  eexists. split.
  - rewrite Eb, <- LP. apply write_spec; [apply le_length|lia].
  - destruct R as (T & E & F). split; [exact T|]. cbn [mv_bytes]. split.
    + rewrite Ef. replace (nth e sizes 0%nat) with (w + (nth e sizes 0%nat - w)) at 2 by lia. rewrite low_bytes_from_bytes, <- app_assoc. reflexivity.
    + apply change_fields; auto. intros x Hx. now apply low_bytes_from_small.
Qed.

Lemma read_field : forall m l i e w, repr m l -> i < length l -> e < length sizes -> w <= nth e sizes 0%nat ->
  mv_read_bytes (mv_bytes m) (i * B + list_sum (firstn e sizes)) w = Ok (nth e (nth i l []) 0 mod 256 ^ N.of_nat w)%N.
Proof.
  intros m l i e w R Hi He Hw. destruct (repr_split m l i e R Hi He) as (P & Q & LP & Eb & Ef). pose proof (size_le_8 e).
  replace (nth e sizes 0%nat) with (w + (nth e sizes 0%nat - w)) in Eb by lia. rewrite le_bytes_app, <- app_assoc in Eb.
  rewrite Eb, <- LP. apply read_spec. lia.
Qed.

Lemma field_small : forall m l i e, repr m l -> i < length l -> e < length sizes -> (nth e (nth i l []) 0 < 256 ^ N.of_nat (nth e sizes 0%nat))%N.
Proof.
  intros m l i e (_ & _ & F) Hi He. rewrite Forall_forall in F. specialize (F (nth i l []) (nth_In _ _ Hi)). unfold fields_ok in F.
  clear Hi Hs Hpos B. revert e He. induction F; intros e He; simpl in He; [lia|]. destruct e; cbn [nth]; auto. apply IHF. lia.
Qed.

Lemma low_bytes_all : forall w v x, (x < 256 ^ N.of_nat w)%N -> low_bytes_from w v x = (v mod 256 ^ N.of_nat w)%N.
Proof. intros. unfold low_bytes_from. rewrite (N.div_small x) by auto. lia. Qed.

Lemma change_at_ext : forall A (l : list A) i f g d, (i < length l -> f (nth i l d) = g (nth i l d)) -> change_at l i f = change_at l i g.
Proof.
  intros A l i f g d H. unfold change_at. destruct (nth_error l i) eqn:E; auto.
  assert (i < length l) by (apply nth_error_Some; congruence). rewrite (nth_error_nth l i d E) in H. rewrite H by auto. reflexivity.
Qed.

Lemma write_whole : forall m l i e v, repr m l -> i < length l -> e < length sizes ->
  exists bs, mv_write_bytes (mv_bytes m) (i * B + list_sum (firstn e sizes)) (nth e sizes 0%nat) v = Ok bs /\
    repr (MV (mv_table m) bs) (change_at l i (fun r => change_at r e (fun _ => v mod 256 ^ N.of_nat (nth e sizes 0%nat))%N)).
Proof.
  intros m l i e v R Hi He. destruct (write_field m l i e (nth e sizes 0%nat) v R Hi He (le_n _)) as (bs & E & R').
  exists bs. split; auto. erewrite change_at_ext; [exact R'|]. intros _. cbv beta.
  apply (change_at_ext _ _ _ _ _ 0%N). intros _. symmetry. apply low_bytes_all. now apply field_small with (m := m).
Qed.

Lemma repr_block : forall m l i, repr m l -> i < length l -> mv_block m i = Ok (i * B).
Proof.
  intros m l i R Hi. unfold mv_block. rewrite (repr_offset m l) by auto. cbn [bind]. destruct R as (T & E & F).
  rewrite (lget_nth _ _ _ 0%N); [reflexivity|]. rewrite E, enc_length by auto. fold B. unfold B in *. nia.
Qed.

Lemma repr_nested : forall m l i e, repr m l -> i < length l -> e < length sizes -> mv_nested m i e = Ok (nth e (nth i l []) 0%N).
Proof.
  intros m l i e R Hi He. unfold mv_nested. rewrite (repr_offset m l) by auto. cbn [bind]. assert (T := proj1 R). rewrite T, table_get by auto.
  cbn [bind fst snd]. rewrite (read_field m l) by auto. f_equal. apply N.mod_small. now apply field_small with (m := m).
Qed.
Lemma repr_block_get : forall m l i e, repr m l -> i < length l -> e < length sizes -> mv_block_get m i e = Ok (nth e (nth i l []) 0%N).
Proof.
  intros m l i e R Hi He. unfold mv_block_get. rewrite (repr_block m l) by auto. cbn [bind]. assert (T := proj1 R). rewrite T, table_get by auto.
  cbn [bind fst snd]. rewrite (read_field m l) by auto. f_equal. apply N.mod_small. now apply field_small with (m := m).
Qed.
Lemma repr_restricted_get : forall m l t i e, repr m l -> i < length l -> e < length sizes ->
  mv_block_restricted_get m t i e = Ok (nth e (nth i l []) 0 mod 256 ^ N.of_nat t)%N.
Proof.
  intros m l t i e R Hi He. unfold mv_block_restricted_get. rewrite (repr_block m l) by auto. cbn [bind]. assert (T := proj1 R). rewrite T, table_get by auto.
  cbn [bind fst snd]. rewrite (read_field m l) by (auto; lia). f_equal.
  destruct (Nat.min_spec (nth e sizes 0%nat) t) as [(H & ->)|(H & ->)]; auto.
  pose proof (field_small m l i e R Hi He). assert (256 ^ N.of_nat (nth e sizes 0%nat) <= 256 ^ N.of_nat t)%N by (apply N.pow_le_mono_r; lia).
  rewrite !N.mod_small by lia. reflexivity.
Qed.

Lemma repr_set_at : forall m l i e v, repr m l -> i < length l -> e < length sizes ->
  exists m', mv_set_at (i * B) m e v = Ok m' /\
    repr m' (change_at l i (fun r => change_at r e (fun _ => v mod 256 ^ N.of_nat (nth e sizes 0%nat))%N)).
Proof.
  intros m l i e v R Hi He. destruct (write_whole m l i e v R Hi He) as (bs & E & R'). unfold mv_set_at.
  assert (T := proj1 R). replace (lget (mv_table m) e) with (lget table e) by now rewrite T. rewrite table_get by auto. cbn [bind fst snd]. rewrite E. cbn [bind]. eauto.
Qed.

Lemma enc_firstn : forall l n, Forall (fields_ok sizes) l -> enc sizes (firstn n l) = firstn (n * B) (enc sizes l).
Proof.
  intros l n F. destruct (Nat.le_gt_cases n (length l)) as [H|H].
  - rewrite <- (firstn_skipn n l) at 2. rewrite enc_app. rewrite firstn_app.
    assert (Ff : Forall (fields_ok sizes) (firstn n l)). { rewrite <- (firstn_skipn n l) in F. apply Forall_app in F. tauto. }
    rewrite enc_length, firstn_length by auto. fold B. replace (Nat.min n (length l)) with n by lia. rewrite Nat.sub_diag. cbn [firstn].
    rewrite app_nil_r. symmetry. apply firstn_all2. rewrite enc_length, firstn_length by auto. fold B. nia.
  - rewrite firstn_all2 by lia. symmetry. apply firstn_all2. rewrite enc_length by auto. fold B. nia.
Qed.

Lemma enc_repeat_zero : forall k, enc sizes (repeat (record sizes []) k) = repeat 0%N (k * B).
Proof.
  unfold enc. induction k; [reflexivity|]. cbn [repeat map concat Nat.mul]. rewrite IHk, repeat_app. f_equal. apply enc_record_zero.
Qed.

Lemma Forall_firstn_ok : forall A (P : A -> Prop) l n, Forall P l -> Forall P (firstn n l).
Proof. intros A P l n F. rewrite <- (firstn_skipn n l) in F. apply Forall_app in F. tauto. Qed.
Lemma Forall_repeat_ok : forall A (P : A -> Prop) a n, P a -> Forall P (repeat a n).
Proof. induction n; simpl; constructor; auto. Qed.

Lemma repr_resize : forall m l n, repr m l -> exists m', mv_resize m n = Ok m' /\ repr m' (firstn n l ++ repeat (record sizes []) (n - length l)).
Proof.
  intros m l n R. unfold mv_resize. rewrite (repr_offset m l) by auto. cbn [bind]. eexists. split; [reflexivity|]. destruct R as (T & E & F).
  split; [exact T|]. cbn [mv_bytes]. split.
  - rewrite E. unfold lresize. rewrite enc_app, enc_firstn, enc_repeat_zero, enc_length by auto. fold B. do 2 f_equal. nia.
  - apply Forall_app. split; [now apply Forall_firstn_ok|]. apply Forall_repeat_ok. apply record_ok.
Qed.

(** After storing the first values of a record, the remaining fields are as before *)
Lemma record_zero_nth : forall sz e, nth e (record sz []) 0%N = 0%N.
Proof. induction sz; intros [|e]; simpl; auto. Qed.

Lemma change_at_twice : forall A (l : list A) i f g, change_at (change_at l i f) i g = change_at l i (fun a => g (f a)).
Proof.
  intros A l i. revert l. induction i; intros [|a l] f g; try reflexivity. rewrite !change_at_cons. now rewrite IHi.
Qed.
Lemma change_at_id : forall A (l : list A) i f, (forall a, f a = a) -> change_at l i f = l.
Proof.
  intros A l i. revert l. induction i; intros [|a l] f H; try reflexivity.
  - unfold change_at. simpl. now rewrite H.
  - rewrite change_at_cons. now rewrite IHi.
Qed.

(** The record obtained by storing [vals] from field [e] on *)
Fixpoint store (sz : list nat) (e : nat) (vals : list N) (r : list N) : list N :=
  match vals with
  | [] => r
  | v :: vals => store sz (S e) vals (change_at r e (fun _ => v mod 256 ^ N.of_nat (nth e sz 0%nat))%N)
  end.

Lemma store_cons : forall vals s sz a r e, store (s :: sz) (S e) vals (a :: r) = a :: store sz e vals r.
Proof. induction vals; intros; [reflexivity|]. cbn [store nth]. rewrite change_at_cons. apply IHvals. Qed.

Lemma store_record : forall sz vals, length vals <= length sz -> store sz 0 vals (record sz []) = record sz vals.
Proof.
  induction sz; intros [|v vals] H; simpl in H; try lia; try reflexivity.
  cbn [store record nth]. change (change_at (0%N :: record sz []) 0 (fun _ => (v mod 256 ^ N.of_nat a)%N)) with ((v mod 256 ^ N.of_nat a)%N :: record sz []).
  rewrite store_cons. rewrite IHsz by lia. reflexivity.
Qed.

Lemma repr_set_all : forall vals m l i e, repr m l -> i < length l -> e + length vals <= length sizes ->
  exists m', mv_set_all (i * B) m e vals = Ok m' /\ repr m' (change_at l i (store sizes e vals)).
Proof.
  induction vals; intros m l i e R Hi H; cbn [mv_set_all store length] in *.
  - exists m. split; auto. now rewrite change_at_id.
  - destruct (repr_set_at m l i e a R Hi) as (m1 & E1 & R1); [lia|]. rewrite E1. cbn [bind].
    destruct (IHvals m1 _ i (S e) R1) as (m2 & E2 & R2); [now rewrite change_at_length|lia|].
    exists m2. split; auto. rewrite change_at_twice in R2. exact R2.
Qed.

Lemma nth_error_middle : forall A (l1 : list A) x l2, nth_error (l1 ++ x :: l2) (length l1) = Some x.
Proof. induction l1; simpl; auto. Qed.
Lemma change_at_middle : forall A (l1 : list A) x l2 f n, n = length l1 -> change_at (l1 ++ x :: l2) n f = l1 ++ f x :: l2.
Proof. intros A l1 x l2 f n ->. induction l1; [reflexivity|]. cbn [length app]. rewrite change_at_cons. now rewrite IHl1. Qed.

Lemma repr_fill : forall vals k m l, length vals <= length sizes -> repr m (l ++ repeat (record sizes []) k) ->
  exists m', foldM (fun m i => do p <- mv_block m i; mv_set_all p m 0 vals) (seq (length l) k) m = Ok m' /\
    repr m' (l ++ repeat (record sizes vals) k).
Proof.
  intros vals. induction k; intros m l Hv R; cbn [seq foldM].
  - exists m. auto.
  - cbn [repeat] in *.
    rewrite (repr_block m _ (length l) R) by (rewrite app_length; simpl; lia). cbn [bind].
    destruct (repr_set_all vals m _ (length l) 0 R) as (m1 & E1 & R1); [rewrite app_length; simpl; lia|lia|]. rewrite E1. cbn [bind].
    rewrite change_at_middle in R1 by auto. rewrite store_record in R1 by auto.
    destruct (IHk m1 (l ++ [record sizes vals]) Hv) as (m2 & E2 & R2); [now rewrite <- app_assoc|].
    rewrite app_length in E2. simpl length in E2. rewrite Nat.add_1_r in E2. exists m2. split; [exact E2|]. now rewrite <- app_assoc in R2.
Qed.

Lemma step_repr : forall m l o l', repr m l -> mv_spec_step sizes l o = Some l' -> exists m', mv_step m o = Ok m' /\ repr m' l'.
Proof.
  intros m l o l' R H. destruct o; cbn [mv_spec_step mv_step] in *.
  - injection H as <-. now apply repr_resize.
  - destruct (Nat.leb_spec (length vals) (length sizes)); [|discriminate]. injection H as <-. unfold mv_resize_v. rewrite (repr_size m l) by auto. cbn [bind].
    destruct (repr_resize m l n R) as (m1 & E1 & R1). destruct (Nat.ltb_spec n (length l)).
    + exists m1. split; auto. replace (n - length l) with 0 in * by lia. exact R1.
    + destruct (Nat.ltb_spec (length l) n).
      * rewrite E1. cbn [bind]. rewrite firstn_all2 in R1 by lia. rewrite firstn_all2 by lia. now apply repr_fill.
      * exists m. split; auto. assert (n = length l) as -> by lia. rewrite firstn_all, Nat.sub_diag. cbn [repeat]. now rewrite app_nil_r.
  - injection H as <-. unfold mv_emplace_back. rewrite (repr_size m l) by auto. cbn [bind].
    destruct (repr_resize m l (length l + 1) R) as (m1 & E1 & R1). exists m1. split; auto. rewrite firstn_all2 in R1 by lia.
    replace (length l + 1 - length l) with 1 in R1 by lia. exact R1.
  - destruct (Nat.leb_spec (length vals) (length sizes)); [|discriminate]. injection H as <-. unfold mv_push_back. rewrite (repr_size m l) by auto. cbn [bind].
    destruct (repr_resize m l (length l + 1) R) as (m1 & E1 & R1). rewrite E1. cbn [bind]. rewrite firstn_all2 in R1 by lia.
    replace (length l + 1 - length l) with 1 in R1 by lia. rewrite (repr_size m1 _ R1). cbn [bind]. rewrite app_length. cbn [repeat length].
    replace (length l + 1 - 1) with (length l) by lia. destruct (repr_fill vals 1 m1 l H0 R1) as (m2 & E2 & R2).
    cbn [seq foldM] in E2. exists m2. split; auto. destruct (mv_block m1 (length l)); cbn [bind] in *; try discriminate.
    destruct (mv_set_all a m1 0 vals); cbn [bind] in *; congruence.
  - destruct (Nat.ltb_spec i (length l)), (Nat.ltb_spec e (length sizes)); try discriminate. injection H as <-. unfold mv_set_nested.
    rewrite (repr_offset m l) by auto. cbn [bind]. destruct (repr_set_at m l i e v R) as (m' & E & R'); auto.
    exists m'. split; auto.
  - destruct (Nat.ltb_spec i (length l)), (Nat.ltb_spec e (length sizes)); try discriminate. injection H as <-. unfold mv_block_set.
    rewrite (repr_block m l) by auto. cbn [bind]. now apply repr_set_at.
  - destruct (Nat.ltb_spec i (length l)), (Nat.ltb_spec e (length sizes)); try discriminate. injection H as <-. unfold mv_block_restricted_set.
    rewrite (repr_block m l) by auto. cbn [bind]. assert (T := proj1 R). replace (lget (mv_table m) e) with (lget table e) by now rewrite T. rewrite table_get by auto. cbn [bind fst snd].
    destruct (write_field m l i e (Nat.min (nth e sizes 0%nat) t) v R) as (bs & E & R'); auto; [lia|]. rewrite E. cbn [bind]. eauto.
Qed.

Lemma run_repr : forall ops m l l', repr m l -> mv_spec_run sizes l ops = Some l' -> exists m', foldM mv_step ops m = Ok m' /\ repr m' l'.
Proof.
  induction ops; intros m l l' R H; cbn [mv_spec_run foldM] in *.
  - injection H as <-. eauto.
  - destruct (mv_spec_step sizes l a) eqn:E; [|discriminate]. destruct (step_repr m l a l0 R E) as (m1 & E1 & R1). rewrite E1. cbn [bind]. eauto.
Qed.

Lemma make_repr : repr (mv_make sizes) [].
Proof. split; [|split; [reflexivity|constructor]]. unfold mv_make, mv_set_element_sizes. cbn [mv_table mv_default]. now rewrite mv_append_positions. Qed.

Lemma mv_history : forall ops l, mv_spec_run sizes [] ops = Some l ->
  exists m, mv_run sizes ops = Ok m /\ mv_size m = Ok (length l) /\
    forall i e, i < length l -> e < length sizes ->
      let x := nth e (nth i l []) 0%N in
      mv_nested m i e = Ok x /\ mv_block_get m i e = Ok x /\ forall t, mv_block_restricted_get m t i e = Ok (x mod 256 ^ N.of_nat t)%N.
Proof.
  intros ops l H. destruct (run_repr ops _ [] l make_repr H) as (m & E & R). exists m. split; auto. split; [now apply repr_size|].
  intros i e Hi He. cbv zeta. split; [now apply repr_nested|]. split; [now apply repr_block_get|]. intros. now apply repr_restricted_get.
Qed.
End Table.

(** *** Streams *)
Definition mv_fits (m : multiple) : Prop := size_fits (length (mv_bytes m)) /\ size_fits (length (mv_table m)) /\ Forall (fun e => size_fits (snd e)) (mv_table m).

Lemma concat_single : forall A (l : list A), concat (map (fun b => [b]) l) = l.
Proof. induction l; simpl; congruence. Qed.

Lemma rt_mv : forall target m, mv_fits m -> rt (mv_load target) (mv_store m) (MV (mv_table target ++ positions 0 (map snd (mv_table m))) (mv_bytes m)).
Proof.
  intros target [t bs] (A & B & C). cbn [mv_table mv_bytes] in *. unfold mv_load, mv_store. cbn [mv_table mv_bytes].
  apply rt_bind with bs.
  { apply rt_vec; auto. apply Forall_forall. intros b _ rest. reflexivity. }
  rewrite <- mv_append_positions.
  apply (rt_last _ _ _ (fun sizes => mv_set_element_sizes (MV (mv_table target) bs) sizes)).
  apply rt_vec; [now rewrite map_length|]. apply Forall_map. eapply Forall_impl; [|exact C]. intros. now apply rt_size.
Qed.

Lemma positions_snd : forall l p, map snd (positions p l) = l.
Proof. induction l; intros; simpl; congruence. Qed.

Lemma mv_step_table : forall m o m', mv_step m o = Ok m' -> mv_table m' = mv_table m.
Proof.
  assert (SA : forall p m e v m', mv_set_at p m e v = Ok m' -> mv_table m' = mv_table m).
  { intros p m e v m' H. unfold mv_set_at in H. apply bind_Ok_inv in H. destruct H as (? & _ & H). apply bind_Ok_inv in H. destruct H as (? & _ & H).
    now injection H as <-. }
  assert (SL : forall vals p m e m', mv_set_all p m e vals = Ok m' -> mv_table m' = mv_table m).
  { induction vals; intros p m e m' H; cbn [mv_set_all] in H; [now injection H as <-|]. apply bind_Ok_inv in H. destruct H as (m1 & H1 & H).
    apply SA in H1. apply IHvals in H. congruence. }
  assert (RS : forall m n m', mv_resize m n = Ok m' -> mv_table m' = mv_table m).
  { intros m n m' H. unfold mv_resize in H. apply bind_Ok_inv in H. destruct H as (? & _ & H). now injection H as <-. }
  intros m o m' H. destruct o; cbn [mv_step] in H.
  - eauto.
  - unfold mv_resize_v in H. apply bind_Ok_inv in H. destruct H as (sz & _ & H). destruct (n <? sz); [eauto|]. destruct (sz <? n); [|now injection H as <-].
    apply bind_Ok_inv in H. destruct H as (m1 & H1 & H). apply RS in H1. rewrite <- H1. clear H1. revert m1 H. generalize (seq sz (n - sz)).
    induction l; intros m1 H; cbn [foldM] in H; [now injection H as <-|]. apply bind_Ok_inv in H. destruct H as (m2 & H2 & H).
    apply bind_Ok_inv in H2. destruct H2 as (p & _ & H2). apply SL in H2. apply IHl in H. congruence.
  - unfold mv_emplace_back in H. apply bind_Ok_inv in H. destruct H as (? & _ & H). eauto.
  - unfold mv_push_back in H. apply bind_Ok_inv in H. destruct H as (? & _ & H). apply bind_Ok_inv in H. destruct H as (m1 & H1 & H).
    apply bind_Ok_inv in H. destruct H as (? & _ & H). apply bind_Ok_inv in H. destruct H as (? & _ & H). apply SL in H. apply RS in H1. congruence.
  - unfold mv_set_nested in H. do 3 (apply bind_Ok_inv in H; destruct H as (? & _ & H)). now injection H as <-.
  - unfold mv_block_set in H. apply bind_Ok_inv in H. destruct H as (? & _ & H). eauto.
  - unfold mv_block_restricted_set in H. do 3 (apply bind_Ok_inv in H; destruct H as (? & _ & H)). now injection H as <-.
Qed.

Lemma mv_run_table : forall sizes ops m, mv_run sizes ops = Ok m -> mv_table m = positions 0 sizes.
Proof.
  intros sizes ops m H. unfold mv_run in H. revert H. assert (E : mv_table (mv_make sizes) = positions 0 sizes).
  { unfold mv_make, mv_set_element_sizes. cbn [mv_table mv_default]. now rewrite mv_append_positions. }
  revert E. generalize (mv_make sizes). induction ops; intros m0 E H; cbn [foldM] in H; [now injection H as <-|].
  apply bind_Ok_inv in H. destruct H as (m1 & H1 & H). apply mv_step_table in H1. apply (IHops m1); congruence.
Qed.

Lemma mv_round_trip : forall sizes ops m rest, mv_run sizes ops = Ok m -> mv_fits m ->
  mv_load mv_default (mv_store m ++ rest) = Ok (m, rest).
Proof.
  intros sizes ops m rest H F. rewrite (rt_mv mv_default m F). apply mv_run_table in H. destruct m as [t bs]. cbn [mv_table mv_bytes mv_default app] in *.
  subst t. now rewrite positions_snd.
Qed.

Lemma mv_size_bytes : forall m, mv_size_in_bytes m + 4 = length (mv_store m).
Proof.
  intros [t bs]. unfold mv_size_in_bytes, mv_store, write_vec, size_vec, write_size, write_val. cbn [mv_table mv_bytes].
  rewrite !app_length, !le_length, concat_single, map_map.
  assert (E : length (concat (map (fun x : nat * nat => le_bytes 8 (N.of_nat (snd x))) t)) = 8 * length t).
  { induction t; [reflexivity|]. cbn [map concat length]. rewrite app_length, le_length, IHt. lia. }
  rewrite E. replace (16 * length t + 8) with ((8 * length t + 4) * 2) by lia. rewrite Nat.div_mul by lia. lia.
Qed.
