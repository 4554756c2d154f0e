(** Proofs for MultipleModel3.v and for objects whose layout was set more than once. *)
From Coq Require Import List NArith ZArith Lia Bool Arith.
From Verif Require Import Base Spec3 StreamModel StreamProof ShortStream MultipleModel MultipleModel2 MultipleModel3 MultipleProof MultipleProof2.
Import ListNotations.
Local Open Scope nat_scope.

(** ** Reading bytes *)
Lemma read_any : forall bs o w, Forall (fun b => (b < 256)%N) bs -> w <= 8 -> o + w <= length bs ->
  mv_read_bytes bs o w = Ok (le_value (firstn w (skipn o bs))).
Proof.
  intros bs o w HB Hw Ho. set (c := firstn w (skipn o bs)). assert (Lc : length c = w) by (unfold c; rewrite firstn_length, skipn_length; lia).
  assert (Bc : Forall (fun b => (b < 256)%N) c). { apply Forall_forall. intros x Hx. rewrite Forall_forall in HB. apply HB. rewrite <- (firstn_skipn o bs). apply in_or_app. right.
    rewrite <- (firstn_skipn w (skipn o bs)). apply in_or_app. now left. }
  destruct (le_bytes_value c Bc) as (E & L). rewrite Lc in E, L.
  pose proof (read_spec w (firstn o bs) (le_value c) (skipn w (skipn o bs)) Hw) as R. rewrite E in R. unfold c in R at 1. rewrite !firstn_skipn in R.
  rewrite firstn_length in R. replace (Nat.min o (length bs)) with o in R by lia. rewrite R. f_equal. apply N.mod_small.
  replace (256 ^ N.of_nat w)%N with (2 ^ N.of_nat (8 * w))%N; auto. change 256%N with (2 ^ 8)%N. rewrite <- N.pow_mul_r. f_equal. lia.
Qed.
Lemma read_past : forall bs o w, 0 < w -> length bs < o + w -> mv_read_bytes bs o w = UB.
Proof.
  intros bs o w Hw H. unfold mv_read_bytes. apply foldM_UB with (a := w - 1).
  - apply in_seq. lia.
  - intros s. rewrite (proj2 (lget_UB _ _ _)) by lia. reflexivity.
  - intros s x _. destruct (Nat.lt_ge_cases (o + x) (length bs)) as [L|L].
    + rewrite (lget_nth _ _ _ 0%N) by auto. cbn [bind]. unfold shl64. destruct (_ <? 64)%N; cbn [bind]; eauto.
    + rewrite (proj2 (lget_UB _ _ _)) by auto. now right.
Qed.

(** ** A layout after another one *)
Section Again.
Variables (t : list (nat * nat)) (bs : list N) (sizes : list nat).
Hypothesis Hpos : 0 < list_sum sizes.
Let B := list_sum sizes.
Let m' := mv_set_element_sizes (MV t bs) sizes.

Lemma again_table : mv_table m' = t ++ positions 0 sizes.
Proof. unfold m', mv_set_element_sizes. cbn [mv_table]. apply append_positions. Qed.
Lemma again_len : 0 < length sizes.
Proof. destruct sizes; simpl in *; lia. Qed.
Lemma again_new : forall e, e < length sizes -> lget (mv_table m') (length t + e) = Ok (list_sum (firstn e sizes), nth e sizes 0).
Proof.
  intros e He. rewrite again_table. rewrite (lget_nth _ _ _ (0, 0)) by (rewrite app_length, plen; lia). rewrite app_nth2 by lia.
  replace (length t + e - length t) with e by lia. rewrite pnth by auto. reflexivity.
Qed.
Lemma again_old : forall e, e < length t -> lget (mv_table m') e = Ok (nth e t (0, 0)).
Proof. intros e He. rewrite again_table. rewrite (lget_nth _ _ _ (0, 0)) by (rewrite app_length; lia). now rewrite app_nth1 by lia. Qed.
Lemma again_block_size : mv_block_size m' = Ok B.
Proof.
  unfold mv_block_size. pose proof again_len. replace (length (mv_table m') - 1) with (length t + (length sizes - 1)) by (rewrite again_table, app_length, plen; lia).
  rewrite again_new by lia. cbn [bind fst snd]. f_equal. now apply sum_last.
Qed.
Lemma again_size : mv_size m' = Ok (length bs / B).
Proof. unfold mv_size. rewrite again_block_size. cbn [bind]. destruct (Nat.eqb_spec B 0); [unfold B in *; lia|reflexivity]. Qed.
Lemma again_offset : forall i, mv_offset m' i = Ok (i * B).
Proof. intros. unfold mv_offset. now rewrite again_block_size. Qed.
Lemma again_nested : forall i e el, lget (mv_table m') e = Ok el -> mv_nested m' i e = mv_read_bytes bs (i * B + fst el) (snd el).
Proof. intros i e el E. unfold mv_nested. rewrite again_offset. cbn [bind]. rewrite E. reflexivity. Qed.
Lemma again_get : forall i e el, lget (mv_table m') e = Ok el -> i * B < length bs -> mv_block_get m' i e = mv_nested m' i e.
Proof.
  intros i e el E H. rewrite (again_nested i e el E). unfold mv_block_get, mv_block. rewrite again_offset. cbn [bind]. change (mv_bytes m') with bs.
  rewrite (lget_nth _ _ _ 0%N) by auto. cbn [bind]. rewrite E. reflexivity.
Qed.
End Again.

Lemma sum_prefix : forall l e, e < length l -> list_sum (firstn e l) + nth e l 0 <= list_sum l.
Proof.
  induction l; intros e H; simpl in H; [lia|]. destruct e; cbn [firstn nth]; unfold list_sum in *; cbn [fold_right]; [lia|]. specialize (IHl e). lia.
Qed.

Lemma relayout : forall t bs sizes, Forall (fun b => (b < 256)%N) bs -> 0 < list_sum sizes ->
  let B := list_sum sizes in let m' := mv_set_element_sizes (MV t bs) sizes in
  mv_size m' = Ok (length bs / B) /\
  (forall i e, i < length bs / B -> e < length sizes -> nth e sizes 0 <= 8 ->
     let x := le_value (firstn (nth e sizes 0) (skipn (i * B + list_sum (firstn e sizes)) bs)) in
     mv_nested m' i (length t + e) = Ok x /\ mv_block_get m' i (length t + e) = Ok x) /\
  (forall i e, e < length t -> let pos := fst (nth e t (0, 0)) in let s := snd (nth e t (0, 0)) in
     (s <= 8 -> i * B + pos + s <= length bs -> mv_nested m' i e = Ok (le_value (firstn s (skipn (i * B + pos) bs)))) /\
     (0 < s -> length bs < i * B + pos + s -> mv_nested m' i e = UB)).
Proof.
  intros t bs sizes HB Hpos B m'. split; [now apply again_size|]. split.
  - intros i e Hi He H8 x. pose proof (sum_prefix sizes e He) as SP. fold B in SP. assert (HBs : B * (length bs / B) <= length bs) by (apply Nat.mul_div_le; unfold B; lia).
    assert (IB : i * B + B <= length bs) by nia.
    assert (Q : mv_nested m' i (length t + e) = Ok x).
    { unfold m'. rewrite (again_nested t bs sizes Hpos i _ _ (again_new t bs sizes Hpos e He)). cbn [fst snd]. fold B. apply read_any; auto. lia. }
    split; [exact Q|]. unfold m'. rewrite (again_get t bs sizes Hpos i _ _ (again_new t bs sizes Hpos e He)); [exact Q|]. fold B. unfold B in *. lia.
  - intros i e He pos s. split.
    + intros H8 H. unfold m'. rewrite (again_nested t bs sizes Hpos i _ _ (again_old t bs sizes Hpos e He)). fold B pos s. apply read_any; auto.
    + intros H0 H. unfold m'. rewrite (again_nested t bs sizes Hpos i _ _ (again_old t bs sizes Hpos e He)). fold B pos s. apply read_past; auto.
Qed.

(** ** Loading into a used object *)
Lemma load_used : forall target sizes ops l m rest, Forall (fun s => s <= 8) sizes -> 0 < list_sum sizes ->
  mv_spec_run sizes [] ops = Some l -> mv_run sizes ops = Ok m -> mv_fits m ->
  exists m', mv_load target (mv_store m ++ rest) = Ok (m', rest) /\ mv_size m' = Ok (length l) /\
    forall i e, i < length l -> e < length sizes ->
      mv_nested m' i (length (mv_table target) + e) = Ok (nth e (nth i l []) 0%N) /\
      mv_block_get m' i (length (mv_table target) + e) = Ok (nth e (nth i l []) 0%N).
Proof.
  intros target sizes ops l m rest Hs Hpos SR MR MF. destruct (run_repr sizes Hs Hpos ops _ [] l (make_repr sizes) SR) as (m0 & E0 & R). unfold mv_run in MR. rewrite E0 in MR.
  injection MR as <-. assert (RM := rt_mv target m0 MF rest). rewrite RM. eexists. split; [reflexivity|].
  assert (T : mv_table m0 = positions 0 sizes) by exact (proj1 R). rewrite T, positions_snd.
  assert (Em : MV (mv_table target ++ positions 0 sizes) (mv_bytes m0) = mv_set_element_sizes (MV (mv_table target) (mv_bytes m0)) sizes).
  { unfold mv_set_element_sizes. cbn [mv_table mv_bytes]. now rewrite append_positions. }
  rewrite Em. set (m' := mv_set_element_sizes (MV (mv_table target) (mv_bytes m0)) sizes).
  assert (Lb : length (mv_bytes m0) = length l * list_sum sizes) by (destruct R as (_ & Eb & F); rewrite Eb; now apply enc_length).
  split.
  { unfold m'. rewrite again_size by auto. rewrite Lb, Nat.div_mul by lia. reflexivity. }
  intros i e Hi He.
  assert (Q : mv_nested m' i (length (mv_table target) + e) = Ok (nth e (nth i l []) 0%N)).
  { unfold m'. rewrite (again_nested _ _ sizes Hpos i _ _ (again_new _ _ sizes Hpos e He)). cbn [fst snd]. rewrite (read_field sizes Hs Hpos m0 l) by auto.
    f_equal. apply N.mod_small. now apply (field_small sizes m0). }
  split; [exact Q|]. unfold m'. rewrite (again_get _ _ sizes Hpos i _ _ (again_new _ _ sizes Hpos e He)); [exact Q|]. nia.
Qed.

(** ** Assigning a list to a block *)
Lemma nth_store : forall vals sz e r f, length r = length sz -> e + length vals <= length sz -> f < length sz ->
  nth f (store sz e vals r) 0%N = if (e <=? f) && (f <? e + length vals) then (nth (f - e) vals 0 mod 256 ^ N.of_nat (nth f sz 0%nat))%N else nth f r 0%N.
Proof.
  induction vals as [|v vals IH]; intros sz e r f Lr He Hf; cbn [store length] in *.
  - destruct (Nat.leb_spec e f), (Nat.ltb_spec f (e + 0)); cbn [andb]; auto; lia.
  - rewrite IH by (rewrite ?change_at_length; lia). rewrite nth_change_at by lia.
    destruct (Nat.leb_spec (S e) f), (Nat.ltb_spec f (S e + length vals)), (Nat.leb_spec e f), (Nat.ltb_spec f (e + S (length vals))), (Nat.eqb_spec f e); cbn [andb]; try lia; auto.
    + replace (f - e) with (S (f - S e)) by lia. reflexivity.
    + subst f. rewrite Nat.sub_diag. reflexivity.
Qed.

Lemma assign_stores : forall sizes ops l, Forall (fun s => s <= 8) sizes -> 0 < list_sum sizes -> mv_spec_run sizes [] ops = Some l ->
  exists m, mv_run sizes ops = Ok m /\ forall i vals, i < length l -> length vals <= length sizes ->
    exists m', mv_assign_stores m i vals = Ok m' /\ mv_size m' = Ok (length l) /\
      forall j f, j < length l -> f < length sizes ->
        mv_nested m' j f = Ok (if (j =? i) && (f <? length vals) then (nth f vals 0 mod 256 ^ N.of_nat (nth f sizes 0%nat))%N else nth f (nth j l []) 0%N).
Proof.
  intros sizes ops l Hs Hpos SR. destruct (run_repr sizes Hs Hpos ops _ [] l (make_repr sizes) SR) as (m & E & R). exists m. split; [exact E|].
  intros i vals Hi Hv. unfold mv_assign_stores. rewrite (repr_block sizes Hs Hpos m l) by auto. cbn [bind].
  destruct (repr_set_all sizes Hs Hpos vals m l i 0 R Hi Hv) as (m2 & E2 & R2). exists m2. split; [exact E2|].
  split; [rewrite (repr_size sizes Hs Hpos _ _ R2); now rewrite change_at_length|]. intros j f Hj Hf.
  rewrite (repr_nested sizes Hs Hpos _ _ j f R2) by (rewrite ?change_at_length; auto). f_equal. rewrite nth_change_at by auto.
  destruct (Nat.eqb_spec j i) as [->|]; [|reflexivity]. cbn [andb].
  assert (Lr : length (nth i l []) = length sizes). { destruct R as (_ & _ & F). rewrite Forall_forall in F. symmetry. eapply Forall2_len. apply F. now apply nth_In. }
  rewrite nth_store by auto. cbn [Nat.leb andb Nat.add]. now rewrite Nat.sub_0_r.
Qed.

Lemma set_at_or : forall p m e v, (exists m', mv_set_at p m e v = Ok m') \/ mv_set_at p m e v = UB.
Proof.
  intros. unfold mv_set_at. destruct (lget (mv_table m) e) as [el| | |] eqn:G; cbn [bind]; auto.
  2,3: unfold lget in G; destruct (nth_error _ _); discriminate.
  assert (Q : forall l bs, (exists bs', foldM (fun bs i => do x <- shr64 v (N.of_nat (i * 8)); lset bs (p + fst el + i) (x mod 256)%N) l bs = Ok bs') \/
    foldM (fun bs i => do x <- shr64 v (N.of_nat (i * 8)); lset bs (p + fst el + i) (x mod 256)%N) l bs = UB).
  { induction l; intros bs; cbn [foldM]; eauto. unfold shr64 at 1 3. destruct (_ <? 64)%N; cbn [bind]; auto.
    destruct (lset_or _ bs (p + fst el + a) (N.shiftr v (N.of_nat (a * 8)) mod 256)%N) as [(l' & ->)| ->]; cbn [bind]; auto. }
  unfold mv_write_bytes. destruct (Q (seq 0 (snd el)) (mv_bytes m)) as [(bs' & ->)| ->]; cbn [bind]; eauto.
Qed.
Lemma set_at_table : forall p m e v m', mv_set_at p m e v = Ok m' -> mv_table m' = mv_table m.
Proof. intros p m e v m' H. unfold mv_set_at in H. apply bind_Ok_inv in H. destruct H as (? & _ & H). apply bind_Ok_inv in H. destruct H as (? & _ & H). now injection H as <-. Qed.
Lemma set_all_long : forall vals p m e, length (mv_table m) < e + length vals -> e <= length (mv_table m) -> mv_set_all p m e vals = UB.
Proof.
  induction vals as [|v vals IH]; intros p m e H He; cbn [length mv_set_all] in *; [lia|].
  destruct (Nat.eq_dec e (length (mv_table m))) as [->|N].
  - unfold mv_set_at. rewrite (proj2 (lget_UB _ _ _)) by auto. reflexivity.
  - destruct (set_at_or p m e v) as [(m1 & E)|E]; rewrite E; cbn [bind]; auto. apply IH; rewrite (set_at_table _ _ _ _ _ E); lia.
Qed.
Lemma assign_long : forall m i vals, length (mv_table m) < length vals -> mv_assign_stores m i vals = UB.
Proof.
  intros m i vals H. unfold mv_assign_stores, mv_block, mv_offset, mv_block_size. destruct (lget (mv_table m) _) eqn:G; cbn [bind]; auto.
  2,3: unfold lget in G; destruct (nth_error _ _); discriminate.
  destruct (lget (mv_bytes m) _) eqn:G2; cbn [bind]; auto. 2,3: unfold lget in G2; destruct (nth_error _ _); discriminate.
  apply set_all_long; lia.
Qed.
