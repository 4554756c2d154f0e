(** BitVector as a sequence of booleans (BitVectorModel.v) *)
From Coq Require Import List NArith ZArith Lia Bool Arith.
From Coq Require Import ZifyBool ZifyNat ZifyN.
From Verif Require Import Base Spec BitUtilModel BitUtilProof BitUtilProof2 XorMapProof BitVectorModel BitVectorProof.
Import ListNotations.
Local Open Scope nat_scope.

Lemma one_mask_bit : forall o i, (o < 64)%N -> N.testbit (wshl 1 o) i = (i =? o)%N.
Proof.
  intros. rewrite wshl_spec.
  destruct (N.ltb_spec i 64), (N.leb_spec o i), (N.eqb_spec i o); simpl; try lia; auto.
  - subst. now rewrite N.sub_diag.
  - destruct (i - o)%N eqn:D; auto; lia.
Qed.

Lemma land_one_mask : forall w o, (o < 64)%N -> negb (N.eqb (N.land w (wshl 1 o)) 0) = N.testbit w o.
Proof.
  intros. destruct (N.testbit w o) eqn:E.
  - destruct (N.eqb_spec (N.land w (wshl 1 o)) 0) as [H0|]; auto.
    assert (N.testbit (N.land w (wshl 1 o)) o = true).
    { rewrite N.land_spec, E, one_mask_bit, N.eqb_refl; auto. }
    rewrite H0, N.bits_0 in H1. discriminate.
  - assert (N.land w (wshl 1 o) = 0%N).
    { apply N.bits_inj. intro i. rewrite N.land_spec, one_mask_bit, N.bits_0 by auto.
      destruct (N.eqb_spec i o); [subst; now rewrite E|now rewrite andb_false_r]. }
    now rewrite H0.
Qed.

Lemma mod64_lt : forall i, (N.of_nat (i mod 64) < 64)%N.
Proof. intros. pose proof (Nat.mod_upper_bound i 64). lia. Qed.

Lemma div64_lt : forall i n, i < 64 * n -> i / 64 < n.
Proof. intros. apply Nat.div_lt_upper_bound; lia. Qed.

Lemma ref_get_spec : forall ws i, i < 64 * length ws ->
  ref_get ws (Ref (Z.of_nat (i / 64)) (wshl 1 (N.of_nat (i mod 64)))) = Ok (bitat ws i).
Proof.
  intros. unfold ref_get. cbn [ref_seg ref_mask]. rewrite wgetZ_nat by now apply div64_lt. cbn [bind].
  rewrite land_one_mask by apply mod64_lt. reflexivity.
Qed.

Lemma ref_set_spec : forall ws i x, i < 64 * length ws -> small ws ->
  exists ws', ref_set ws (Ref (Z.of_nat (i / 64)) (wshl 1 (N.of_nat (i mod 64)))) x = Ok ws' /\
   length ws' = length ws /\ small ws' /\ forall j, bitat ws' j = if j =? i then x else bitat ws j.
Proof.
  intros ws i x H Hs. unfold ref_set. cbn [ref_seg ref_mask]. pose proof (div64_lt _ _ H).
  rewrite wgetZ_nat by auto. cbn [bind]. rewrite wsetZ_nat by auto. eexists. split; [reflexivity|].
  rewrite upd_length. split; auto. split.
  - apply small_upd; auto. pose proof (small_nth ws (i / 64) Hs).
    destruct x; [apply lor_lt; auto; apply wshl_small|now apply land_small].
  - intros j. rewrite bitat_upd by auto. pose proof (mod64_lt i). pose proof (mod64_lt j).
    pose proof (Nat.div_mod i 64). pose proof (Nat.div_mod j 64).
    destruct (Nat.eqb_spec (j / 64) (i / 64)).
    + assert (Q : (j =? i) = (N.of_nat (j mod 64) =? N.of_nat (i mod 64))%N) by lia. rewrite Q. unfold bitat.
      rewrite e. destruct x.
      * rewrite N.lor_spec, one_mask_bit by auto. destruct (_ =? _)%N; [apply orb_true_r|apply orb_false_r].
      * rewrite N.land_spec, wnot_spec, one_mask_bit by auto. destruct (_ =? _)%N; [apply andb_false_r|apply andb_true_r].
    + destruct (Nat.eqb_spec j i); [congruence|]. auto.
Qed.

Lemma make_ref_Ok : forall i, make_ref i = Ok (Ref (Z.of_nat (i / 64)) (wshl 1 (N.of_nat (i mod 64)))).
Proof. intros. unfold make_ref, OffsetMask. rewrite shl64_Ok by apply mod64_lt. reflexivity. Qed.

Lemma iter_deref_make : forall i, iter_deref (make_iter i) = Ok (Ref (Z.of_nat (i / 64)) (wshl 1 (N.of_nat (i mod 64)))).
Proof. intros. unfold iter_deref, make_iter. cbn [seg ctz_]. rewrite shl64_Ok by apply mod64_lt. reflexivity. Qed.

Lemma iter_inc_make : forall i, iter_inc (make_iter i) = make_iter (i + 1).
Proof.
  intros. destruct (make_iter_pos i) as [A B]. destruct (iter_inc_pos _ A) as [C D]. apply ipos_make_iter; auto. lia.
Qed.

(** ** Representation *)
Definition bv_rep (v : bitvec) (l : list bool) : Prop :=
  bv_size v = length l /\ length (bv_words v) = get_word_size (length l) /\ small (bv_words v) /\
  forall i, i < length l -> bitat (bv_words v) i = nth i l false.

Lemma gws_ge : forall n, n <= 64 * get_word_size n.
Proof.
  intros. unfold get_word_size. destruct (Nat.eqb_spec n 0); [lia|].
  pose proof (Nat.div_mod (n - 1) 64). pose proof (Nat.mod_upper_bound (n - 1) 64). lia.
Qed.
Lemma gws_pos : forall n, 1 <= get_word_size n.
Proof. intros. unfold get_word_size. destruct (n =? 0); lia. Qed.
Lemma gws_mono : forall n m, n <= m -> get_word_size n <= get_word_size m.
Proof.
  intros. unfold get_word_size. destruct (Nat.eqb_spec n 0), (Nat.eqb_spec m 0); try lia.
Qed.

Lemma bitat_lresize : forall ws n i, i < 64 * n -> bitat (lresize ws n 0%N) i = if i <? 64 * length ws then bitat ws i else false.
Proof.
  intros. unfold bitat. pose proof (div64_lt _ _ H). rewrite nth_lresize by auto.
  pose proof (Nat.div_mod i 64). pose proof (Nat.mod_upper_bound i 64).
  destruct (Nat.ltb_spec (i / 64) (length ws)), (Nat.ltb_spec i (64 * length ws)); auto; try lia. 
Qed.

Lemma nth_firstn_lt : forall A (l : list A) n i d, i < n -> nth i (firstn n l) d = nth i l d.
Proof. induction l; intros n i d H; destruct n, i; simpl; auto; try lia. apply IHl. lia. Qed.

Lemma nth_resized : forall A (l : list A) n b d i, i < n ->
  nth i (firstn n l ++ repeat b (n - length l)) d = if i <? length l then nth i l d else b.
Proof. intros. exact (nth_lresize _ l n b d i H). Qed.

Lemma bv_rep_intro : forall n ws l, n = length l -> length ws = get_word_size n -> small ws ->
  (forall i, i < n -> bitat ws i = nth i l false) -> bv_rep (BV n ws) l.
Proof. intros. subst n. repeat split; auto. Qed.

Lemma bv_resize_rep : forall v l n b, bv_rep v l ->
  exists v', bv_resize v n b = Ok v' /\ bv_rep v' (firstn n l ++ repeat b (n - length l)).
Proof.
  intros v l n b (Hz & Hl & Hs & Hb). unfold bv_resize. rewrite Hz.
  assert (LL : length (firstn n l ++ repeat b (n - length l)) = n) by (rewrite app_length, firstn_length, repeat_length; lia).
  destruct (Nat.ltb_spec n (length l)).
  - eexists. split; [reflexivity|]. apply bv_rep_intro; auto.
    + apply lresize_length.
    + now apply small_lresize.
    + intros. rewrite nth_resized by auto. pose proof (gws_ge n). rewrite bitat_lresize by lia.
      pose proof (gws_ge (length l)). rewrite Hl. 
      destruct (Nat.ltb_spec i (64 * get_word_size (length l))), (Nat.ltb_spec i (length l)); try lia. apply Hb. lia.
  - destruct (Nat.ltb_spec (length l) n).
    + destruct (fill_spec (lresize (bv_words v) (get_word_size n) 0%N) (length l) n b) as (ws & E & L & S & B).
      * now apply small_lresize.
      * rewrite lresize_length. apply gws_ge.
      * rewrite E. cbn [bind]. eexists. split; [reflexivity|]. rewrite lresize_length in L.
        apply bv_rep_intro; auto. intros. rewrite nth_resized, B by auto. pose proof (gws_ge n). rewrite bitat_lresize by lia.
        pose proof (gws_ge (length l)). rewrite Hl.
        destruct (Nat.leb_spec (length l) i), (Nat.ltb_spec i n), (Nat.ltb_spec i (length l)), (Nat.ltb_spec i (64 * get_word_size (length l))); simpl; auto; try lia.
    + assert (n = length l) by lia. subst n. rewrite firstn_all, Nat.sub_diag. simpl. rewrite app_nil_r. exists v. repeat split; auto.
Qed.

Lemma bv_push_rep : forall v l b, bv_rep v l -> exists v', bv_push_back v b = Ok v' /\ bv_rep v' (l ++ [b]).
Proof.
  intros. unfold bv_push_back. pose proof H as (Hz & _). rewrite Hz.
  destruct (bv_resize_rep v l (length l + 1) b H) as (v' & E & R). exists v'. split; auto.
  rewrite firstn_all2 in R by lia. replace (length l + 1 - length l) with 1 in R by lia. exact R.
Qed.

Lemma bv_assign_rep : forall v l n b, bv_rep v l -> exists v', bv_assign v n b = Ok v' /\ bv_rep v' (repeat b n).
Proof.
  intros v l n b (Hz & Hl & Hs & Hb). unfold bv_assign.
  destruct (fill_spec (lresize (bv_words v) (get_word_size n) 0%N) 0 n b) as (ws & E & L & S & B).
  - now apply small_lresize.
  - rewrite lresize_length. apply gws_ge.
  - rewrite E. cbn [bind]. eexists. split; [reflexivity|]. rewrite lresize_length in L.
    apply bv_rep_intro; auto; [now rewrite repeat_length|].
    intros. rewrite B, nth_repeat_lt by auto. destruct (Nat.leb_spec 0 i), (Nat.ltb_spec i n); simpl; auto; lia.
Qed.

Lemma nth_splice : forall (l : list bool) i j b k, i <= j -> j <= length l ->
  nth k (firstn i l ++ repeat b (j - i) ++ skipn j l) false = if (i <=? k) && (k <? j) then b else nth k l false.
Proof.
  intros. assert (length (firstn i l) = i) by (rewrite firstn_length; lia).
  destruct (Nat.leb_spec i k).
  - rewrite app_nth2 by lia. rewrite H1. destruct (Nat.ltb_spec k j); simpl.
    + rewrite app_nth1 by (rewrite repeat_length; lia). apply nth_repeat_lt. lia.
    + rewrite app_nth2 by (rewrite repeat_length; lia). rewrite repeat_length.
      rewrite <- (firstn_skipn j l) at 2. rewrite app_nth2; rewrite firstn_length; [f_equal; lia|lia].
  - simpl. rewrite app_nth1 by lia. now apply nth_firstn_lt.
Qed.

Lemma splice_length : forall (l : list bool) i j b, i <= j -> j <= length l ->
  length (firstn i l ++ repeat b (j - i) ++ skipn j l) = length l.
Proof. intros. rewrite !app_length, firstn_length, repeat_length, skipn_length. lia. Qed.

Lemma bv_fill_rep : forall v l i j b, bv_rep v l -> i <= j -> j <= length l ->
  exists v', bv_fill v i j b = Ok v' /\ bv_rep v' (firstn i l ++ repeat b (j - i) ++ skipn j l).
Proof.
  intros v l i j b (Hz & Hl & Hs & Hb) Hi Hj. unfold bv_fill.
  pose proof (gws_ge (length l)).
  destruct (fill_spec (bv_words v) i j b) as (ws & E & L & S & B); auto; try lia.
  rewrite E. cbn [bind]. eexists. split; [reflexivity|].
  apply bv_rep_intro; auto; try rewrite splice_length; auto; try lia.
  - rewrite Hz. lia.
  - intros k Hk. rewrite B, nth_splice by auto. destruct (_ && _); auto. apply Hb. lia.
Qed.

Lemma bv_set_rep : forall v l i b, bv_rep v l -> i < length l ->
  exists v', bv_set v i b = Ok v' /\ bv_rep v' (firstn i l ++ b :: skipn (S i) l).
Proof.
  intros v l i b (Hz & Hl & Hs & Hb) Hi. unfold bv_set. rewrite make_ref_Ok. cbn [bind].
  pose proof (gws_ge (length l)).
  destruct (ref_set_spec (bv_words v) i b) as (ws & E & L & S & B); auto; try lia.
  rewrite E. cbn [bind]. eexists. split; [reflexivity|].
  change (b :: skipn (Datatypes.S i) l) with (repeat b 1 ++ skipn (Datatypes.S i) l).
  replace 1 with (Datatypes.S i - i) by lia.
  apply bv_rep_intro; auto; try rewrite splice_length; auto; try lia.
  - rewrite Hz. lia.
  - intros k Hk. rewrite B, nth_splice by lia.
    destruct (Nat.eqb_spec k i), (Nat.leb_spec i k), (Nat.ltb_spec k (Datatypes.S i)); simpl; try lia; auto; apply Hb; lia.
Qed.

Lemma bv_get_rep : forall v l i, bv_rep v l -> i < length l -> bv_get v i = Ok (nth i l false).
Proof.
  intros v l i (Hz & Hl & Hs & Hb) Hi. unfold bv_get. rewrite make_ref_Ok. cbn [bind].
  pose proof (gws_ge (length l)). rewrite ref_get_spec by lia. now rewrite Hb.
Qed.

Lemma bv_step_rep : forall v l o l', bv_rep v l -> bits_step l o = Some l' ->
  exists v', bv_step v o = Ok v' /\ bv_rep v' l'.
Proof.
  intros v l o l' R E. destruct o; simpl in *.
  - injection E as <-. now apply bv_resize_rep.
  - injection E as <-. now apply bv_push_rep.
  - injection E as <-. now apply bv_assign_rep with l.
  - destruct (Nat.leb_spec i j), (Nat.leb_spec j (length l)); simpl in E; try discriminate. injection E as <-.
    now apply bv_fill_rep.
  - destruct (Nat.ltb_spec i (length l)); try discriminate. injection E as <-. now apply bv_set_rep.
Qed.

Lemma bv_run_rep : forall ops v l l', bv_rep v l -> bits_run l ops = Some l' ->
  exists v', bv_run v ops = Ok v' /\ bv_rep v' l'.
Proof.
  induction ops as [|o ops IH]; intros v l l' R E; simpl in E.
  - injection E as <-. exists v. auto.
  - destruct (bits_step l o) eqn:Es; [|discriminate].
    destruct (bv_step_rep v l o l0 R Es) as (v1 & E1 & R1). destruct (IH _ _ _ R1 E) as (v' & E' & R').
    exists v'. unfold bv_run in *. simpl. rewrite E1. auto.
Qed.

(** constructors *)
Lemma bv_default_rep : bv_rep bv_default [].
Proof. repeat split; simpl; auto; try lia. apply (small_repeat0 1). Qed.

Lemma bitat_repeat0 : forall n i, bitat (repeat 0%N n) i = false.
Proof. intros. unfold bitat. rewrite nth_repeat. apply N.bits_0. Qed.

Lemma bv_sized_rep : forall n, bv_rep (bv_sized n) (repeat false n).
Proof.
  intros. apply bv_rep_intro; try rewrite !repeat_length; auto.
  - apply small_repeat0.
  - intros. rewrite bitat_repeat0, nth_repeat. auto.
Qed.

Lemma bv_filled_rep : forall n b, exists v, bv_filled n b = Ok v /\ bv_rep v (repeat b n).
Proof.
  intros. unfold bv_filled. destruct (fill_spec (repeat 0%N (get_word_size n)) 0 n b) as (ws & E & L & S & B).
  - apply small_repeat0.
  - rewrite repeat_length. apply gws_ge.
  - rewrite E. cbn [bind]. eexists. split; [reflexivity|]. rewrite repeat_length in L.
    apply bv_rep_intro; auto; [now rewrite repeat_length|].
    intros. rewrite B, nth_repeat_lt by auto. destruct (Nat.leb_spec 0 i), (Nat.ltb_spec i n); simpl; auto; lia.
Qed.

Lemma transform_spec : forall l ws p, small ws -> p + length l <= 64 * length ws ->
  exists ws', foldM transform_step l (ws, make_iter p) = Ok (ws', make_iter (p + length l)) /\
    length ws' = length ws /\ small ws' /\
    forall j, bitat ws' j = if (p <=? j) && (j <? p + length l) then nth (j - p) l false else bitat ws j.
Proof.
  induction l; intros ws p Hs Hl; simpl in Hl.
  - exists ws. simpl. rewrite Nat.add_0_r. repeat split; auto. intros.
    destruct (Nat.leb_spec p j), (Nat.ltb_spec j p); simpl; auto; lia.
  - simpl foldM. rewrite iter_deref_make. cbn [bind].
    destruct (ref_set_spec ws p a) as (ws1 & E1 & L1 & S1 & B1); auto; try lia.
    rewrite E1. cbn [bind]. rewrite iter_inc_make.
    destruct (IHl ws1 (p + 1)) as (ws' & E & L & S & B); auto; try lia.
    exists ws'. rewrite E. simpl length. split; [do 2 f_equal; f_equal; lia|]. split; [lia|]. split; auto.
    intros. rewrite B, B1.
    destruct (Nat.leb_spec (p + 1) j), (Nat.ltb_spec j (p + 1 + length l)), (Nat.leb_spec p j), (Nat.ltb_spec j (p + Datatypes.S (length l))), (Nat.eqb_spec j p); simpl andb; cbv iota; try lia; auto.
    + destruct (j - p) eqn:D; [lia|]. simpl. f_equal. lia.
    + subst j. rewrite Nat.sub_diag. auto.
Qed.

Lemma bv_of_bits_rep : forall l, exists v, bv_of_bits l = Ok v /\ bv_rep v l.
Proof.
  intros. unfold bv_of_bits.
  destruct (transform_spec l (repeat 0%N (get_word_size (length l))) 0) as (ws & E & L & S & B).
  - apply small_repeat0.
  - rewrite repeat_length. apply gws_ge.
  - rewrite E. cbn [bind fst]. eexists. split; [reflexivity|]. rewrite repeat_length in L.
    apply bv_rep_intro; auto. intros. rewrite B. destruct (Nat.leb_spec 0 i), (Nat.ltb_spec i (0 + length l)); simpl; try lia. f_equal. lia.
Qed.

Lemma iterate_spec : forall n ws p l, small ws -> p + n <= 64 * length ws -> length l = n ->
  (forall i, i < n -> bitat ws (p + i) = nth i l false) ->
  iterate n ws (make_iter p) (make_iter (p + n)) = Ok l.
Proof.
  induction n; intros ws p l Hs Hp Hl Hb; destruct (make_iter_pos p) as [A B], (make_iter_pos (p + 0)) as [C D].
  - simpl. rewrite iter_eqb_pos by auto. rewrite B, D. destruct l; simpl in Hl; [|lia].
    destruct (Z.eqb_spec (Z.of_nat p) (Z.of_nat (p + 0))); auto; lia.
  - destruct (make_iter_pos (p + S n)) as [C' D']. destruct l as [|x l]; simpl in Hl; [lia|].
    cbn [iterate]. rewrite iter_eqb_pos by auto. rewrite B, D'. destruct (Z.eqb_spec (Z.of_nat p) (Z.of_nat (p + S n))); [lia|].
    rewrite iter_deref_make. cbn [bind]. rewrite ref_get_spec by lia. cbn [bind]. rewrite iter_inc_make.
    replace (p + S n) with ((p + 1) + n) by lia. rewrite (IHn ws (p + 1) l); auto; try lia.
    + cbn [bind]. specialize (Hb 0). rewrite Nat.add_0_r in Hb. rewrite Hb by lia. auto.
    + intros. specialize (Hb (S i)). replace (p + 1 + i) with (p + S i) by lia. rewrite Hb by lia. auto.
Qed.

Lemma bv_to_list_rep : forall v l, bv_rep v l -> bv_to_list v = Ok l.
Proof.
  intros v l (Hz & Hl & Hs & Hb). unfold bv_to_list. rewrite Hz. pose proof (gws_ge (length l)).
  apply (iterate_spec (length l) (bv_words v) 0 l); auto; lia.
Qed.

(** ** Statements for the property file *)
Lemma bv_start_rep : forall s l, bv_start s l -> exists v, s = Ok v /\ bv_rep v l.
Proof.
  intros s l H. destruct H.
  - eexists. split; eauto using bv_default_rep.
  - eexists. split; eauto using bv_sized_rep.
  - apply bv_filled_rep.
  - apply bv_of_bits_rep.
Qed.

Lemma bv_history : forall s l0 ops l, bv_start s l0 -> bits_run l0 ops = Some l ->
  exists v, (do v <- s; bv_run v ops) = Ok v /\ bv_size v = length l /\
    (forall i b, nth_error l i = Some b -> bv_get v i = Ok b) /\ bv_to_list v = Ok l.
Proof.
  intros s l0 ops l Hs Hr. destruct (bv_start_rep _ _ Hs) as (v0 & -> & R0).
  destruct (bv_run_rep ops v0 l0 l R0 Hr) as (v & E & R). exists v. split; auto.
  pose proof R as (Hz & _). split; auto. split; [|now apply bv_to_list_rep].
  intros i b Hi. rewrite (bv_get_rep v l i R).
  - f_equal. now apply nth_error_nth.
  - apply nth_error_Some. congruence.
Qed.

Lemma bv_at_history : forall s l0 ops l, bv_start s l0 -> bits_run l0 ops = Some l ->
  exists v, (do v <- s; bv_run v ops) = Ok v /\
    forall i, bv_at v i = match nth_error l i with Some b => Ok b | None => Throw end.
Proof.
  intros s l0 ops l Hs Hr. destruct (bv_start_rep _ _ Hs) as (v0 & -> & R0).
  destruct (bv_run_rep ops v0 l0 l R0 Hr) as (v & E & R). exists v. split; auto.
  intros i. unfold bv_at. pose proof R as (Hz & _). rewrite Hz.
  destruct (nth_error l i) eqn:Ei.
  - assert (i < length l) by (apply nth_error_Some; congruence).
    destruct (Nat.leb_spec (length l) i); [lia|]. rewrite (bv_get_rep v l i R) by auto. f_equal. now apply nth_error_nth.
  - apply nth_error_None in Ei. destruct (Nat.leb_spec (length l) i); auto; lia.
Qed.

(** iterators, in the terms of the API *)
Lemma iter_displacement : forall i d, (- 2 ^ 63 + 63 <= d < 2 ^ 63)%Z -> (Z.of_nat i < 2 ^ 63)%Z -> (0 <= Z.of_nat i + d)%Z ->
  iter_deref (iter_plus_eq (iter_plus (make_iter 0) (Z.of_nat i)) d) = make_ref (Z.to_nat (Z.of_nat i + d)).
Proof.
  intros. unfold iter_plus. rewrite sgn64_id by lia. rewrite iter_plus_make by lia.
  replace (Z.to_nat (Z.of_nat 0 + Z.of_nat i)) with i by lia. rewrite iter_plus_make by lia.
  rewrite iter_deref_make, make_ref_Ok. auto.
Qed.

Lemma iter_steps : forall i, iter_inc (make_iter i) = make_iter (i + 1) /\ iter_dec (make_iter (i + 1)) = make_iter i.
Proof.
  intros. split; [apply iter_inc_make|]. destruct (make_iter_pos (i + 1)) as [A B].
  destruct (iter_dec_pos _ A) as [C D]. apply ipos_make_iter; auto. lia.
Qed.

Lemma iter_compare : forall i j, (Z.of_nat i < 2 ^ 63)%Z -> (Z.of_nat j < 2 ^ 63)%Z ->
  iter_diff (make_iter i) (make_iter j) = (Z.of_nat i - Z.of_nat j)%Z /\
  iter_eqb (make_iter i) (make_iter j) = (i =? j) /\ iter_ltb (make_iter i) (make_iter j) = (i <? j) /\
  iter_leb (make_iter i) (make_iter j) = (i <=? j).
Proof.
  intros. destruct (make_iter_pos i) as [A B], (make_iter_pos j) as [C D].
  unfold iter_leb. rewrite iter_diff_pos, iter_eqb_pos, !iter_ltb_pos by (auto; lia). rewrite B, D. lia.
Qed.

Lemma ref_addr_make : forall i r, make_ref i = Ok r -> ref_addr r = make_iter i.
Proof.
  intros i r H. rewrite make_ref_Ok in H. injection H as <-. unfold ref_addr, make_iter. cbn [ref_seg ref_mask]. f_equal.
  assert (L : forall o, (o < 64)%N -> ctz64 (wshl 1 o) = o).
  { intros o Ho. assert (Q : (ctz64 (wshl 1 o) =? o)%N = true); [|now apply N.eqb_eq].
    apply (sweep (fun o => N.eqb (ctz64 (wshl 1 o)) o) 64); [vm_compute; reflexivity|exact Ho]. }
  apply L, mod64_lt.
Qed.

Lemma fill_range : forall ws b e bit, Forall (fun w => (w < 2 ^ 64)%N) ws -> e <= 64 * length ws ->
  exists ws', fill ws (make_iter b) (make_iter e) bit = Ok ws' /\ length ws' = length ws /\
    Forall (fun w => (w < 2 ^ 64)%N) ws' /\
    forall j, N.testbit (nth (j / 64) ws' 0%N) (N.of_nat (j mod 64)) =
      if (b <=? j) && (j <? e) then bit else N.testbit (nth (j / 64) ws 0%N) (N.of_nat (j mod 64)).
Proof. exact fill_spec. Qed.

Lemma rev_hd_error : forall A (l : list A) x, hd_error (rev l) = Some x -> l <> [] /\ nth_error l (length l - 1) = Some x.
Proof.
  intros A l x H. assert (E : l = rev (rev l)) by now rewrite rev_involutive. destruct (rev l) as [|y r]; [discriminate|]. cbn in H. injection H as ->.
  rewrite E. cbn [rev]. split; [now destruct (rev r)|]. rewrite app_length. cbn [length]. rewrite nth_error_app2 by lia. now replace (length (rev r) + 1 - 1 - length (rev r)) with 0 by lia.
Qed.
Lemma bv_front_back : forall s l0 ops l, bv_start s l0 -> bits_run l0 ops = Some l ->
  exists v, (do v <- s; bv_run v ops) = Ok v /\ forall b, (hd_error l = Some b -> bv_front v = Ok b) /\ (hd_error (rev l) = Some b -> bv_back v = Ok b).
Proof.
  intros s l0 ops l H E. destruct (bv_history s l0 ops l H E) as (v & R & Z & G & _). exists v. split; auto. intros b. split; intros X.
  - apply G. destruct l; [discriminate|exact X].
  - apply rev_hd_error in X. destruct X as [N X]. unfold bv_back. rewrite Z. destruct (Nat.eqb_spec (length l) 0); [destruct l; [congruence|discriminate]|]. now apply G.
Qed.
