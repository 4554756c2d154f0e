(** Proofs about MultipleVector.hpp, continued: set_at<T> for every integer type, fields of more than eight bytes, layouts without bytes. *)
From Coq Require Import List NArith ZArith Arith Bool Lia.
From Verif Require Import Base Spec3 MultipleModel MultipleModel2 MultipleProof.
Import ListNotations.
Local Open Scope nat_scope.

Lemma foldM_UB : forall A S (f : S -> A -> res S) l a s, In a l -> (forall s, f s a = UB) -> (forall s x, In x l -> (exists s', f s x = Ok s') \/ f s x = UB) -> foldM f l s = UB.
Proof.
  induction l as [|x l IH]; intros a s Ha Hu Hok; [contradiction|]. cbn [foldM]. destruct (Hok s x (or_introl eq_refl)) as [(s' & E)|E]; rewrite E; [|reflexivity].
  cbn [bind]. destruct Ha as [->|Ha]; [rewrite Hu in E; discriminate|]. apply IH with (a := a); auto. intros. apply Hok. now right.
Qed.
Lemma lset_or : forall A (l : list A) i x, (exists l', lset l i x = Ok l') \/ lset l i x = UB.
Proof. intros. unfold lset. destruct (i <? length l); eauto. Qed.
Lemma foldM_ext2 : forall A S (f g : S -> A -> res S) l s, (forall s x, In x l -> f s x = g s x) -> foldM f l s = foldM g l s.
Proof.
  induction l as [|x l IH]; intros s H; [reflexivity|]. cbn [foldM]. rewrite (H s x) by now left. destruct (g s x); cbn [bind]; auto. apply IH. intros. apply H. now right.
Qed.

Lemma byte_of : forall z k, (k < 64)%Z -> (0 <= k)%Z -> (k mod 8 = 0)%Z ->
  Z.to_N (Z.shiftr z k mod 256) = (N.shiftr (Z.to_N (z mod 2 ^ 64)) (Z.to_N k) mod 256)%N.
Proof.
  intros z k H H0 H8. apply N2Z.inj. rewrite Z2N.id by (apply Z.mod_pos_bound; lia).
  rewrite N.shiftr_div_pow2, N2Z.inj_mod, N2Z.inj_div, N2Z.inj_pow, !Z2N.id by (try apply Z.mod_pos_bound; lia). change (Z.of_N 2) with 2%Z. rewrite <- Z.shiftr_div_pow2 by lia. change (Z.of_N 256) with (2 ^ 8)%Z. change 256%Z with (2 ^ 8)%Z.
  apply Z.bits_inj'. intros i Hi. destruct (Z.lt_ge_cases i 8) as [L|L].
  - rewrite !Z.mod_pow2_bits_low, !Z.shiftr_spec by lia. rewrite Z.mod_pow2_bits_low; auto.
    assert (k <= 56)%Z; [|lia]. pose proof (Z.div_mod k 8 ltac:(lia)). assert (k / 8 < 8)%Z by (apply Z.div_lt_upper_bound; lia). lia.
  - rewrite !Z.mod_pow2_bits_high by lia. reflexivity.
Qed.

Lemma write_t_same : forall t bs o w z, w <= 8 -> w <= Nat.max 4 t -> mv_write_t t bs o w z = mv_write_bytes bs o w (Z.to_N (z mod 2 ^ 64)).
Proof.
  intros t bs o w z H8 Hw. unfold mv_write_t, mv_write_bytes. apply foldM_ext2. intros s i Hi. apply in_seq in Hi. unfold shr_t, shr64.
  destruct (Nat.ltb_spec (i * 8) (Nat.max 32 (8 * t))); [|lia]. destruct (N.ltb_spec (N.of_nat (i * 8)) 64); [|lia]. cbn [bind]. f_equal.
  rewrite byte_of; [|lia|lia|]. 2:{ rewrite Nat2Z.inj_mul. apply Z.mod_mul. lia. }
  f_equal. f_equal. lia.
Qed.
Lemma write_t_UB : forall t bs o w z, Nat.max 4 t < w -> mv_write_t t bs o w z = UB.
Proof.
  intros t bs o w z Hw. unfold mv_write_t. apply foldM_UB with (a := Nat.max 4 t); [apply in_seq; lia| |].
  - intros s. unfold shr_t. destruct (Nat.ltb_spec (Nat.max 4 t * 8) (Nat.max 32 (8 * t))); [lia|reflexivity].
  - intros s i _. unfold shr_t. destruct (i * 8 <? Nat.max 32 (8 * t)); [|now right]. cbn [bind]. apply lset_or.
Qed.

Lemma nth_change_at : forall A (l : list A) i f j d, i < length l -> nth j (change_at l i f) d = if j =? i then f (nth i l d) else nth j l d.
Proof.
  induction l as [|a l IH]; intros i f j d H; simpl in H; [lia|]. destruct i; [destruct j; reflexivity|]. rewrite change_at_cons. destruct j; [reflexivity|]. cbn [nth Nat.eqb]. apply IH. lia.
Qed.

Lemma set_t_history : forall sizes ops l, Forall (fun s => s <= 8) sizes -> 0 < list_sum sizes -> mv_spec_run sizes [] ops = Some l ->
  exists m, mv_run sizes ops = Ok m /\ forall t i e z, i < length l -> e < length sizes ->
    (nth e sizes 0 <= Nat.max 4 t -> exists m', mv_block_set_t t m i e z = Ok m' /\ mv_size m' = Ok (length l) /\
       forall j f, j < length l -> f < length sizes ->
         mv_nested m' j f = Ok (if (j =? i) && (f =? e) then Z.to_N (z mod 256 ^ Z.of_nat (nth e sizes 0%nat)) else nth f (nth j l []) 0%N)) /\
    (Nat.max 4 t < nth e sizes 0 -> mv_block_set_t t m i e z = UB).
Proof.
  intros sizes ops l Hs Hpos H. destruct (run_repr sizes Hs Hpos ops _ [] l (make_repr sizes) H) as (m & E & R). exists m. split; auto.
  intros t i e z Hi He. pose proof (size_le_8 sizes Hs Hpos e) as H8.
  assert (Q : mv_block_set_t t m i e z = do bs <- mv_write_t t (mv_bytes m) (i * list_sum sizes + list_sum (firstn e sizes)) (nth e sizes 0%nat) z; Ok (MV (mv_table m) bs)).
  { unfold mv_block_set_t. rewrite (repr_block sizes Hs Hpos m l) by auto. cbn [bind]. rewrite (proj1 R). rewrite (table_get sizes Hpos) by auto. reflexivity. }
  rewrite Q. split; intros Hw.
  - rewrite write_t_same by auto. destruct (write_whole sizes Hs Hpos m l i e (Z.to_N (z mod 2 ^ 64)) R Hi He) as (bs & Eb & R'). rewrite Eb. cbn [bind]. eexists. split; [reflexivity|].
    assert (Ll : length (change_at l i (fun r => change_at r e (fun _ => (Z.to_N (z mod 2 ^ 64) mod 256 ^ N.of_nat (nth e sizes 0%nat))%N))) = length l) by apply change_at_length.
    split; [rewrite (repr_size sizes Hs Hpos _ _ R'); now rewrite Ll|].
    intros j f Hj Hf. rewrite (repr_nested sizes Hs Hpos _ _ j f R') by (rewrite ?Ll; auto). f_equal.
    rewrite nth_change_at by auto. destruct (Nat.eqb_spec j i) as [->|]; [|reflexivity]. cbn [andb].
    assert (Lr : length (nth i l []) = length sizes). { destruct R as (_ & _ & F). rewrite Forall_forall in F. symmetry. eapply Forall2_len. apply F. now apply nth_In. }
    rewrite nth_change_at by lia. destruct (Nat.eqb_spec f e) as [->|]; [|reflexivity].
    apply N2Z.inj. rewrite N2Z.inj_mod, N2Z.inj_pow. rewrite !Z2N.id by (apply Z.mod_pos_bound; try apply Z.pow_pos_nonneg; lia). rewrite nat_N_Z. change (Z.of_N 256) with 256%Z.
    replace (2 ^ 64)%Z with (256 ^ Z.of_nat (nth e sizes 0%nat) * 256 ^ (8 - Z.of_nat (nth e sizes 0%nat)))%Z.
    2:{ rewrite <- Z.pow_add_r by lia. replace (Z.of_nat (nth e sizes 0%nat) + (8 - Z.of_nat (nth e sizes 0%nat)))%Z with 8%Z by lia. reflexivity. }
    rewrite Z.rem_mul_r by (try apply Z.pow_nonzero; try apply Z.pow_pos_nonneg; lia). rewrite Z.mul_comm, Z.mod_add by (apply Z.pow_nonzero; lia).
    apply Z.mod_mod. apply Z.pow_nonzero; lia.
  - rewrite write_t_UB by auto. reflexivity.
Qed.

(** fields of more than eight bytes *)
Lemma read_wide : forall bs o w, 8 < w -> mv_read_bytes bs o w = UB.
Proof.
  intros bs o w H. unfold mv_read_bytes. apply foldM_UB with (a := 8); [apply in_seq; lia| |].
  - intros s. unfold lget. destruct (nth_error bs (o + 8)); [|reflexivity]. reflexivity.
  - intros s i _. unfold lget. destruct (nth_error bs (o + i)); [|now right]. cbn [bind]. unfold shl64. destruct (_ <? 64)%N; cbn [bind]; [left; eauto|now right].
Qed.
Lemma write_wide : forall bs o w v, 8 < w -> mv_write_bytes bs o w v = UB.
Proof.
  intros bs o w v H. unfold mv_write_bytes. apply foldM_UB with (a := 8); [apply in_seq; lia| |].
  - intros s. reflexivity.
  - intros s i _. unfold shr64. destruct (_ <? 64)%N; [|now right]. cbn [bind]. apply lset_or.
Qed.
Lemma wide_field : forall m i e, (exists el, nth_error (mv_table m) e = Some el /\ 8 < snd el) -> mv_nested m i e = UB /\ forall v, mv_set_nested m i e v = UB.
Proof.
  intros m i e (el & E & H). unfold mv_nested, mv_set_nested. unfold mv_offset, mv_block_size.
  unfold lget at 1 3. destruct (nth_error (mv_table m) (length (mv_table m) - 1)) as [b|]; [|split; reflexivity].
  cbn [bind]. assert (L : lget (mv_table m) e = Ok el) by (unfold lget; now rewrite E). rewrite L. cbn [bind]. split; [now apply read_wide|]. intros v. now rewrite write_wide.
Qed.
Lemma append_positions : forall l t p, mv_append t p l = t ++ positions p l.
Proof. induction l; intros; cbn [mv_append positions]; [now rewrite app_nil_r|]. rewrite IHl, <- app_assoc. reflexivity. Qed.
Lemma plen : forall l p, length (positions p l) = length l.
Proof. induction l; intros; simpl; auto. Qed.
Lemma pnth : forall l p e, e < length l -> nth e (positions p l) (0, 0) = (p + list_sum (firstn e l), nth e l 0).
Proof.
  induction l; intros p e H; simpl in H; [lia|]. destruct e; cbn [positions nth firstn list_sum fold_right]; [f_equal; lia|].
  rewrite IHl by lia. fold (list_sum (firstn e l)). f_equal. lia.
Qed.
Lemma make_table : forall sizes, mv_table (mv_make sizes) = positions 0 sizes.
Proof. intros. unfold mv_make, mv_set_element_sizes. cbn [mv_table mv_default]. now rewrite append_positions. Qed.
Lemma wide_make : forall sizes bs i e, e < length sizes -> 8 < nth e sizes 0 ->
  mv_nested (MV (mv_table (mv_make sizes)) bs) i e = UB /\ forall v, mv_set_nested (MV (mv_table (mv_make sizes)) bs) i e v = UB.
Proof.
  intros sizes bs i e He Hw. apply wide_field. cbn [mv_table]. rewrite make_table. exists (nth e (positions 0 sizes) (0, 0)).
  split; [apply nth_error_nth'; now rewrite plen|]. now rewrite pnth.
Qed.

(** a layout without bytes *)
Lemma positions_last : forall l p, 0 < length l -> nth (length l - 1) (positions p l) (0, 0) = (p + list_sum (firstn (length l - 1) l), nth (length l - 1) l 0).
Proof. intros. apply pnth. lia. Qed.
Lemma sum_last : forall l, 0 < length l -> list_sum (firstn (length l - 1) l) + nth (length l - 1) l 0 = list_sum l.
Proof.
  induction l; intros H; simpl in H; [lia|]. destruct l; [simpl; lia|]. cbn [length] in *. rewrite Nat.sub_succ, Nat.sub_0_r in *.
  cbn [firstn nth list_sum fold_right] in *. assert (0 < S (length l)) as X by lia. specialize (IHl X). unfold list_sum in *. lia.
Qed.
Lemma zero_block : forall sizes bs, list_sum sizes = 0 -> let m := MV (mv_table (mv_make sizes)) bs in
  mv_size m = UB /\ mv_emplace_back m = UB /\ (forall vals, mv_push_back m vals = UB) /\ (forall n vals, mv_resize_v m n vals = UB).
Proof.
  intros sizes bs H m. assert (Z : mv_size m = UB).
  { unfold mv_size, mv_block_size, m. cbn [mv_table]. rewrite make_table, plen. destruct sizes as [|s r] eqn:Es; [reflexivity|]. rewrite <- Es in *.
    assert (L : 0 < length sizes) by (subst; simpl; lia).
    rewrite (lget_nth _ _ _ (0, 0)) by (rewrite plen; lia). rewrite positions_last by auto. cbn [bind fst snd]. rewrite Nat.add_0_l, sum_last, H by auto. reflexivity. }
  split; auto. unfold mv_emplace_back, mv_push_back, mv_resize_v. rewrite Z. auto.
Qed.
