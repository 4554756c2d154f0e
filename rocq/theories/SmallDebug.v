(** Heap, InitializableArray, MultiBitVector and MultipleVector with assertions on. *)
From Coq Require Import List NArith ZArith Arith Bool Lia.
From Verif Require Import Base Spec Spec2 Spec3 MultiBitSpec BitUtilModel CalcModel CalcProof FoDebugModel HeapModel HeapProof InitArrayModel MultiBitModel MultiBitProof MultiBitProof2 MultipleModel MultipleProof SmallDebugModel.
Import ListNotations.
Local Open Scope nat_scope.

(** ** Heap *)
Lemma value_d_in : forall base id, 1 <= id -> heap_value_d base id = if id <=? length base then lget base (id - 1) else Throw.
Proof. intros. unfold heap_value_d. rewrite (proj2 (Nat.ltb_lt 0 id)) by lia. destruct (id <=? length base); reflexivity. Qed.
Lemma heapify_loop_d_eq : forall asc fuel base id, 1 <= id ->
  heap_heapify_loop_d asc fuel base id = heapify (heap_test asc) (heap_test asc) fuel (length base) base id.
Proof.
  intros asc. induction fuel; intros base id I; cbn [heap_heapify_loop_d heapify]; auto.
  pose proof (Nat.div_mod (length base) 2 ltac:(lia)) as Dm. pose proof (Nat.mod_upper_bound (length base) 2 ltac:(lia)) as Dl.
  destruct (Nat.ltb_spec (length base / 2) id) as [Leaf|Inner]; auto. assert (H2 : 2 * id <= length base) by lia. clear Dm Dl Inner.
  assert (M : exists m, (if 2 * id + 1 <=? length base then do a <- lget base (2 * id - 1); do b <- lget base (2 * id + 1 - 1); Ok (if heap_test asc a b then 2 * id + 1 else 2 * id) else Ok (2 * id)) = Ok m /\
     (if 2 * id + 1 <=? length base then do a <- heap_value_d base (2 * id); do b <- heap_value_d base (2 * id + 1); Ok (if heap_test asc a b then 2 * id + 1 else 2 * id) else Ok (2 * id)) = Ok m /\ 1 <= m <= length base).
  { destruct (Nat.leb_spec (2 * id + 1) (length base)).
    - rewrite !value_d_in by lia. rewrite !(proj2 (Nat.leb_le _ _)) by lia. rewrite !(lget_nth _ _ _ 0%N) by lia. cbn [bind].
      eexists. split; [reflexivity|]. split; [reflexivity|]. destruct (heap_test _ _ _); lia.
    - eexists. split; [reflexivity|]. split; [reflexivity|]. lia. }
  destruct M as (m & E1 & E2 & Hm). rewrite E1, E2. cbn [bind]. rewrite !value_d_in by lia. rewrite !(proj2 (Nat.leb_le _ _)) by lia. rewrite !(lget_nth _ _ _ 0%N) by lia. cbn [bind].
  destruct (heap_test asc _ _); auto. destruct (swap_spec N base (id - 1) (m - 1) 0%N) as (l' & E & L & _); [lia|lia|]. rewrite E. cbn [bind]. rewrite IHfuel by lia. now rewrite L.
Qed.
Lemma heapify_debug : forall asc base id, heap_heapify_d asc base id = if id =? 0 then Throw else heap_heapify asc base id.
Proof.
  intros. destruct (Nat.eqb_spec id 0) as [->|H]; [|apply heapify_loop_d_eq; lia].
  unfold heap_heapify_d. cbn [heap_heapify_loop_d]. rewrite (proj2 (Nat.ltb_ge _ _)) by lia. change (2 * 0) with 0. change (0 + 1) with 1.
  destruct (1 <=? length base); reflexivity.
Qed.
Lemma foldM_ext_in : forall A B (f g : B -> A -> res B) l b, (forall b a, In a l -> f b a = g b a) -> foldM f l b = foldM g l b.
Proof.
  induction l; intros b H; cbn [foldM]; auto. rewrite H by (left; auto). destruct (g b a); cbn [bind]; auto. apply IHl. intros. apply H. now right.
Qed.
Lemma heapify_length : forall asc base id h, 1 <= id -> heap_heapify asc base id = Ok h -> length h = length base.
Proof.
  intros asc base id h I E. unfold heap_heapify in E. destruct (heapify_perm N (heap_test asc) (heap_test asc) 0%N (S (length base)) (length base) base id) as (l' & E' & P); try lia.
  rewrite E' in E. injection E as <-. symmetry. now apply Permutation.Permutation_length.
Qed.
Lemma make_d : forall asc l, heap_make_d asc l = heap_make asc l.
Proof.
  intros asc l. unfold heap_make_d, heap_make, heap_build.
  assert (H : forall ids b, length b = length l -> Forall (fun id => 1 <= id) ids ->
     foldM (heap_heapify_d asc) ids b = foldM (fun b id => heapify (heap_test asc) (heap_test asc) (S (length l)) (length l) b id) ids b).
  { induction ids; intros b L F; cbn [foldM]; auto. inversion F; subst. rewrite heapify_debug. destruct (Nat.eqb_spec a 0); [lia|].
    assert (E : heap_heapify asc b a = heapify (heap_test asc) (heap_test asc) (S (length l)) (length l) b a) by (unfold heap_heapify; now rewrite L). rewrite <- E.
    destruct (heap_heapify asc b a) eqn:E2; cbn [bind]; auto. apply IHids; auto. rewrite (heapify_length _ _ _ _ H1 E2); auto. }
  apply H; auto. apply Forall_forall. intros x Hx. apply in_rev in Hx. apply in_seq in Hx. lia.
Qed.
Theorem heap_debug : forall asc, (forall base id, heap_heapify_d asc base id = if id =? 0 then Throw else heap_heapify asc base id) /\ forall l ops, heap_run_d asc l ops = heap_run asc l ops.
Proof.
  split; [apply heapify_debug|]. intros l ops. unfold heap_run_d, heap_run. rewrite make_d. destruct (heap_make asc l); cbn [bind]; auto. apply foldM_ext_in.
  intros b o _. destruct o; cbn [heap_step_d heap_step].
  - unfold heap_push_d, heap_push. now rewrite heapify_debug.
  - unfold heap_pop_d, heap_pop. destruct b; auto. destruct (swap_at _ _ _); cbn [bind]; auto. now rewrite heapify_debug.
Qed.

(** ** InitializableArray *)
Section IA.
Variables (w : N) (size : nat).
Lemma put_b : forall s i x s', ia_put s i x = Ok s' -> ia_b s' = ia_b s.
Proof. unfold ia_put. intros s i x s' E. apply bind_Ok_inv in E. destruct E as (a & _ & E). injection E as <-. reflexivity. Qed.
Lemma init_block_b : forall s b s', ia_init_block s b = Ok s' -> ia_b s' = ia_b s.
Proof. unfold ia_init_block. intros s b s' E. apply bind_Ok_inv in E. destruct E as (s1 & E1 & E). apply put_b in E1. apply put_b in E. congruence. Qed.
Lemma break_b : forall s b s', ia_break_chain w size s b = Ok s' -> ia_b s' = ia_b s.
Proof.
  unfold ia_break_chain, ia_set_to. intros s b s' E. apply bind_Ok_inv in E. destruct E as (k & _ & E). destruct k; [now apply put_b in E|]. now injection E as <-.
Qed.
Lemma chained_side : forall s b k, ia_chained_to size s b = Ok (Some k) -> b < ia_b s /\ ia_b s <= k \/ k < ia_b s /\ ia_b s <= b.
Proof.
  unfold ia_chained_to. intros s b k E. apply bind_Ok_inv in E. destruct E as (x & _ & E). destruct (_ && _); [|discriminate].
  apply bind_Ok_inv in E. destruct E as (t & _ & E). cbv zeta in E. destruct (t =? _)%N; cbn [andb] in E; [|discriminate].
  destruct (_ || _) eqn:O; [|discriminate]. injection E as <-. apply orb_true_iff in O.
  destruct O as [O|O]; apply andb_true_iff in O; rewrite Nat.ltb_lt, Nat.leb_le in O; auto.
Qed.
(** the new block border, and where the freed block lies *)
Lemma extend_b : forall s s' k, ia_extend w size s = Ok (s', k) -> ia_b s' = S (ia_b s) /\ k < S (ia_b s) /\ (k = ia_b s \/ ia_chained_to size s (ia_b s) = Ok (Some k)).
Proof.
  unfold ia_extend. intros s s' k E. apply bind_Ok_inv in E. destruct E as (c & Ec & E). apply bind_Ok_inv in E. destruct E as ((s1 & k1) & E1 & E).
  cbn [fst snd] in E. apply bind_Ok_inv in E. destruct E as (s2 & E2 & E). apply bind_Ok_inv in E. destruct E as (s3 & E3 & E). injection E as <- <-.
  apply init_block_b in E2. apply break_b in E3. rewrite E3, E2. destruct c as [c|].
  - apply bind_Ok_inv in E1. destruct E1 as (x & _ & E1). apply bind_Ok_inv in E1. destruct E1 as (s4 & E4 & E1). apply bind_Ok_inv in E1. destruct E1 as (s5 & E5 & E1).
    injection E1 as <- <-. apply put_b in E4. apply break_b in E5. rewrite E5, E4. cbn [ia_b]. split; auto. pose proof (chained_side _ _ _ Ec). split; [lia|auto].
  - injection E1 as <- <-. cbn [ia_b]. split; auto. split; [lia|]. left. lia.
Qed.
Lemma make_chain_d : forall s bi bj, bi < ia_b s -> ia_b s <= bj -> ia_make_chain_d w s bi bj = ia_make_chain w s bi bj.
Proof. intros. unfold ia_make_chain_d. rewrite (proj2 (Nat.ltb_lt _ _)), (proj2 (Nat.leb_le _ _)) by auto. reflexivity. Qed.
(** chains are symmetric, whatever is in the memory *)
Lemma chained_sym : forall s b k, b < ia_b s -> ia_chained_to size s b = Ok (Some k) -> ia_chained_to size s k = Ok (Some b).
Proof.
  intros s b k B E. assert (Sd := chained_side _ _ _ E). unfold ia_chained_to, ia_to in *. apply bind_Ok_inv in E. destruct E as (x & Ex & E).
  destruct (x <? N.of_nat (kActualSize size))%N eqn:X; cbn [andb] in E; [|discriminate]. destruct (x mod 2 =? 0)%N eqn:P; [|discriminate].
  apply bind_Ok_inv in E. destruct E as (t & Et & E). cbv zeta in E. destruct (t =? N.of_nat (2 * b))%N eqn:T; cbn [andb] in E; [|discriminate].
  destruct (_ || _); [|discriminate]. assert (K : N.to_nat x / 2 = k) by congruence. apply N.ltb_lt in X. apply N.eqb_eq in P. apply N.eqb_eq in T.
  assert (X2 : N.to_nat x = 2 * k).
  { assert (D : N.to_nat x = 2 * N.to_nat (x / 2)).
    { pose proof (N.div_mod x 2 ltac:(lia)) as D. rewrite P, N.add_0_r in D. apply (f_equal N.to_nat) in D. rewrite N2Nat.inj_mul in D. exact D. }
    rewrite D in K. rewrite (Nat.mul_comm 2), Nat.div_mul in K by lia. lia. }
  rewrite <- X2, Et. cbn [bind]. rewrite T. rewrite (proj2 (N.ltb_lt _ _)) by lia.
  replace (N.of_nat (2 * b) mod 2 =? 0)%N with true by (symmetry; apply N.eqb_eq; rewrite Nat2N.inj_mul, N.mul_comm; apply N.mod_mul; lia). cbn [andb].
  rewrite !Nat2N.id. rewrite Ex. cbn [bind]. cbv zeta. replace (x =? N.of_nat (N.to_nat x))%N with true by (symmetry; apply N.eqb_eq; lia). cbn [andb].
  rewrite (Nat.mul_comm 2 b), Nat.div_mul by lia. rewrite (proj2 (Nat.ltb_lt b (ia_b s))) by lia. rewrite (proj2 (Nat.leb_le (ia_b s) k)) by lia. rewrite orb_true_r. reflexivity.
Qed.
Lemma extend_none : forall s s' k k2, ia_extend w size s = Ok (s', k) -> ia_chained_to size s (ia_b s) = Ok (Some k2) -> k = k2.
Proof.
  unfold ia_extend. intros s s' k k2 E C. rewrite C in E. cbn [bind] in E. apply bind_Ok_inv in E. destruct E as ((s1 & k1) & E1 & E). cbn [fst snd] in E.
  apply bind_Ok_inv in E. destruct E as (s2 & E2 & E). apply bind_Ok_inv in E. destruct E as (s3 & E3 & E). injection E as <- <-.
  apply bind_Ok_inv in E1. destruct E1 as (x & _ & E1). apply bind_Ok_inv in E1. destruct E1 as (s4 & E4 & E1). apply bind_Ok_inv in E1. destruct E1 as (s5 & E5 & E1). now injection E1 as <- <-.
Qed.
Lemma set_d : forall s i v, ia_set_d w size s i v = ia_set w size s i v.
Proof.
  intros s i v. unfold ia_set_d, ia_set. cbv zeta. destruct (ia_chained_to size s (i / 2)) as [c| | |] eqn:Ec; cbn [bind]; auto.
  destruct (Nat.ltb_spec (i / 2) (ia_b s)) as [H|H]; destruct c as [k|]; auto.
  - destruct (ia_extend w size s) as [(s1, j)| | |] eqn:Ee; cbn [bind]; auto. destruct (extend_b _ _ _ Ee) as (B & J & O). destruct (Nat.eqb_spec (i / 2) j) as [|Nj]; auto.
    destruct (ia_to s1 _); cbn [bind]; auto. destruct (ia_put s1 _ _) as [s2| | |] eqn:E2; cbn [bind]; auto. destruct (ia_to s2 _); cbn [bind]; auto.
    destruct (ia_put s2 _ _) as [s3| | |] eqn:E3; cbn [bind]; auto. apply put_b in E2. apply put_b in E3. destruct (chained_side _ _ _ Ec) as [(_ & K)|K]; [|lia].
    rewrite make_chain_d; auto; [lia|]. destruct (Nat.eq_dec k (ia_b s)) as [->|]; [|lia]. exfalso. apply Nj. symmetry. eapply extend_none; eauto. now apply chained_sym.
  - destruct (ia_extend w size s) as [(s1, j)| | |] eqn:Ee; cbn [bind]; auto. destruct (extend_b _ _ _ Ee) as (B & J & O). destruct (Nat.eqb_spec (i / 2) j) as [|Nj]; auto.
    destruct (ia_init_block s1 _) as [s2| | |] eqn:E2; cbn [bind]; auto. apply init_block_b in E2. rewrite make_chain_d; auto; [lia|].
    destruct (Nat.eq_dec (i / 2) (ia_b s)) as [E|]; [|lia]. exfalso. destruct O as [O|O]; [congruence|]. rewrite E in Ec. congruence.
Qed.
Theorem ia_debug : forall mem v ops, ia_run_d w size mem v ops = ia_run w size mem v ops.
Proof. intros. unfold ia_run_d, ia_run. apply foldM_ext_in. intros s o _. destruct o; cbn [ia_step_d ia_step]; auto. apply set_d. Qed.
End IA.

(** ** MultiBitVector *)
Definition set_fits (U : nat) (o : mb_op_b) : Prop := match o with MBDo o => mb_op_fits U o | MBBuild => True end.
Lemma mask_fits : forall U x, (x <=? kBitsMask U)%N = true <-> (x < 2 ^ N.of_nat U)%N.
Proof. intros. unfold kBitsMask. rewrite N.leb_le. assert (0 < 2 ^ N.of_nat U)%N by (apply N.neq_0_lt_0, N.pow_nonzero; lia). lia. Qed.
Lemma mb_step_fits : forall U v o, set_fits U o -> mb_step_d U v o = mb_step_b U v o.
Proof.
  intros U v o F. destruct o as [[i x|i]|]; cbn [mb_step_d mb_step_b mb_step]; auto. unfold mb_set_d. cbn [set_fits mb_op_fits] in F. apply mask_fits in F. rewrite F. reflexivity.
Qed.
Lemma writes_fit : forall U ops, Forall (mb_op_fits U) (writes ops) <-> Forall (set_fits U) ops.
Proof.
  induction ops as [|[o|] ops IH]; cbn [writes]; split; intros H; auto.
  - inversion H; subst. constructor; cbn [set_fits]; auto; tauto.
  - inversion H; subst. constructor; cbn [set_fits] in *; auto; tauto.
  - constructor; cbn [set_fits]; tauto.
  - inversion H; subst. tauto.
Qed.
Theorem multibit_debug : forall U ops, U = 1 \/ U = 2 \/ U = 3 ->
  (Forall (mb_op_fits U) (writes ops) -> mb_run_d U ops = mb_run_b U ops /\ exists v, mb_run_b U ops = Ok v) /\
  (~ Forall (mb_op_fits U) (writes ops) -> mb_run_d U ops = Throw).
Proof.
  intros U ops OU. unfold mb_run_d, mb_run_b. split.
  - intros F. split; [|destruct (mb_rebuilt U ops OU F) as (v & E & _); eauto]. apply foldM_ext_in. intros b a Ia. apply mb_step_fits. apply writes_fit in F. rewrite Forall_forall in F. auto.
  - intros F. assert (S : exists a x i b, ops = a ++ MBDo (MBSet i x) :: b /\ Forall (set_fits U) a /\ (2 ^ N.of_nat U <= x)%N).
    { rewrite writes_fit in F. clear OU. induction ops as [|o ops IH]; [exfalso; auto|].
      assert (D : set_fits U o \/ exists i x, o = MBDo (MBSet i x) /\ (2 ^ N.of_nat U <= x)%N).
      { destruct o as [[i x|i]|]; cbn [set_fits mb_op_fits]; auto. destruct (N.lt_ge_cases x (2 ^ N.of_nat U)); eauto 6. }
      destruct D as [D|(i & x & -> & D)].
      - destruct IH as (a & x & i & b & -> & Fa & Hx); [intros C; apply F; now constructor|]. exists (o :: a), x, i, b. split; auto.
      - exists [], x, i, ops. split; auto. }
    destruct S as (a & x & i & b & -> & Fa & Hx). rewrite foldM_app.
    destruct (mb_rebuilt U a OU (proj2 (writes_fit U a) Fa)) as (v & E & _). unfold mb_run_b in E.
    rewrite (foldM_ext_in _ _ _ (mb_step_b U)) by (intros; apply mb_step_fits; rewrite Forall_forall in Fa; auto). rewrite E. cbn [bind foldM mb_step_d]. unfold mb_set_d.
    assert (X : (x <=? kBitsMask U)%N = false).
    { destruct (x <=? kBitsMask U)%N eqn:Q; auto. apply mask_fits in Q. lia. }
    rewrite X. reflexivity.
Qed.
Theorem multibit_rank_debug : forall U ops, U = 1 \/ U = 2 \/ U = 3 -> Forall (mb_op_fits U) (writes ops) -> just_built ops ->
  let cap := mb_capacity (64 / U) (rev (writes ops)) in let value := mb_last (64 / U) (rev (writes ops)) in
  exists v, mb_run_d U ops = Ok v /\ forall i, i < cap ->
    mb_rank_d U v i = if (value i =? 0)%N then Throw else Ok (N.of_nat (count_if (fun j => (value j =? value i)%N) (seq 0 i))).
Proof.
  intros U ops OU F J cap value. destruct (multibit_debug U ops OU) as (D & _). destruct (D F) as (Dr & _). destruct (mb_rebuilt U ops OU F) as (v & E & G & R). exists v. split; [congruence|].
  intros i Hi. unfold mb_rank_d. rewrite G by auto. fold value. cbn [bind]. destruct (N.eqb_spec (value i) 0) as [Z|Z].
  - rewrite Z. reflexivity.
  - rewrite (proj2 (N.ltb_lt 0 (value i))) by lia. cbn [assert_that bind]. now apply R.
Qed.

(** ** MultipleVector *)
Lemma at_most_8 : forall sizes, Forall (fun s => s <= 8) sizes -> forall e, nth e sizes 0 <= 8.
Proof. intros sizes H e. destruct (Nat.lt_ge_cases e (length sizes)); [|rewrite nth_overflow by auto; lia]. rewrite Forall_forall in H. apply H. now apply nth_In. Qed.
Section MVt.
Variable sizes : list nat.
Hypothesis Hs : Forall (fun s => s <= 8) sizes.
Hypothesis Hpos : 0 < list_sum sizes.
(** the value fits into the element, which has at least one byte *)
Definition mv_value_fits (e : nat) (v : N) : Prop := nth e sizes 0 = 8 \/ 1 <= nth e sizes 0 /\ (v < 256 ^ N.of_nat (nth e sizes 0%nat))%N.
Definition mv_op_fits (o : mv_op) : Prop := match o with MVSet _ e v => mv_value_fits e v | _ => True end.
Lemma in_range_d : forall m l i e, repr sizes m l -> mv_in_range_d m i e = assert_that ((e <? length sizes) && (i <? length l)).
Proof.
  intros m l i e R. unfold mv_in_range_d. rewrite (repr_size sizes Hs Hpos m l R). rewrite (proj1 R). unfold table. rewrite positions_length. destruct (e <? length sizes); reflexivity.
Qed.
Lemma fits_dec : forall e v, e < length sizes ->
  (do fits <- (if nth e sizes 0 =? 8 then Ok true else do n <- SizeFitsInBytes v; Ok (n <=? nth e sizes 0)); assert_that fits) =
  if (nth e sizes 0 =? 8) || (v <? 2 ^ 56)%N then (if (nth e sizes 0 =? 8) || (1 <=? nth e sizes 0) && (v <? 256 ^ N.of_nat (nth e sizes 0%nat))%N then Ok tt else Throw) else UB.
Proof.
  intros e v He. assert (S8 := at_most_8 sizes Hs e). destruct (Nat.eqb_spec (nth e sizes 0) 8) as [E8|N8]; [reflexivity|]. cbn [orb].
  destruct (N.ltb_spec v (2 ^ 56)) as [V|V]; [|now rewrite SizeFitsInBytes_UB].
  rewrite SizeFitsInBytes_ok by auto. cbn [bind]. destruct (bytes_needed_spec v) as (A & B & C). set (s := nth e sizes 0) in *. change 256%N with (2 ^ 8)%N. rewrite <- N.pow_mul_r.
  rewrite (N.mul_comm 8). destruct (Nat.leb_spec (bytes_needed v) s) as [H|H].
  - rewrite (proj2 (Nat.leb_le 1 s)) by lia. cbn [andb]. rewrite (proj2 (N.ltb_lt _ _)); auto. eapply N.lt_le_trans; [exact B|]. apply N.pow_le_mono_r; lia.
  - destruct (Nat.leb_spec 1 s) as [H1|H1]; cbn [andb]; auto. specialize (C s H1 H). rewrite (proj2 (N.ltb_ge _ _)) by auto. reflexivity.
Qed.
Lemma set_nested_debug : forall m l i e v, repr sizes m l ->
  mv_set_nested_d m i e v =
    if (e <? length sizes) && (i <? length l) then
      if (nth e sizes 0 =? 8) || (v <? 2 ^ 56)%N then
        if (nth e sizes 0 =? 8) || (1 <=? nth e sizes 0) && (v <? 256 ^ N.of_nat (nth e sizes 0%nat))%N then mv_set_nested m i e v else Throw
      else UB
    else Throw.
Proof.
  intros m l i e v R. unfold mv_set_nested_d. rewrite (in_range_d m l) by auto. destruct (Nat.ltb_spec e (length sizes)) as [He|He]; cbn [andb]; auto.
  destruct (i <? length l); cbn [assert_that bind]; auto. rewrite (proj1 R) at 1. rewrite table_get by auto. cbn [bind snd]. assert (F := fits_dec e v He).
  destruct (if nth e sizes 0 =? 8 then _ else _) as [b| | |] eqn:Eb; cbn [bind] in F |- *.
  - rewrite F. destruct (_ || (v <? 2 ^ 56)%N); [|destruct b; discriminate]. destruct (_ || _); reflexivity.
  - destruct (_ || (v <? 2 ^ 56)%N); auto. destruct (_ || _); discriminate.
  - destruct (_ || (v <? 2 ^ 56)%N); try discriminate. destruct (_ || _); [discriminate|auto].
  - destruct (_ || (v <? 2 ^ 56)%N); try discriminate. destruct (_ || _); discriminate.
Qed.
Lemma nested_debug : forall m l i e, repr sizes m l -> mv_nested_d m i e = if (e <? length sizes) && (i <? length l) then Ok (nth e (nth i l []) 0%N) else Throw.
Proof.
  intros m l i e R. unfold mv_nested_d. rewrite (in_range_d m l) by auto. destruct (Nat.ltb_spec e (length sizes)) as [He|He]; cbn [andb]; auto.
  destruct (Nat.ltb_spec i (length l)); cbn [assert_that bind]; auto. now apply (repr_nested sizes Hs Hpos).
Qed.
End MVt.
Lemma block_debug : forall m t i e v, mv_block_get_d m i e = mv_block_get m i e /\ mv_block_restricted_get_d m t i e = mv_block_restricted_get m t i e /\
  mv_block_set_d m i e v = mv_block_set m i e v /\ mv_block_restricted_set_d m t i e v = mv_block_restricted_set m t i e v.
Proof.
  intros m t i e v. unfold mv_block_get_d, mv_block_get, mv_block_restricted_get_d, mv_block_restricted_get, mv_block_set_d, mv_block_set, mv_set_at, mv_block_restricted_set_d, mv_block_restricted_set.
  destruct (mv_block m i); cbn [bind]; auto. destruct (lget (mv_table m) e) as [el| | |] eqn:E; cbn [bind]; auto.
  assert (He : e < length (mv_table m)) by (apply lget_Ok in E; apply nth_error_Some; congruence). rewrite (proj2 (Nat.ltb_lt _ _)) by auto. rewrite !(proj2 (Nat.leb_le _ _)) by lia. auto.
Qed.
Lemma mv_run_d_repr : forall sizes ops m l l', Forall (fun s => s <= 8) sizes -> 0 < list_sum sizes -> repr sizes m l -> mv_spec_run sizes l ops = Some l' -> Forall (mv_op_fits sizes) ops ->
  foldM mv_step_d ops m = foldM mv_step ops m.
Proof.
  intros sizes ops. induction ops as [|o ops IH]; intros m l l' Hs Hp R H F; cbn [foldM mv_spec_run] in *; auto. inversion F as [|? ? Fo Fs]; subst.
  destruct (mv_spec_step sizes l o) as [l1|] eqn:E; [|discriminate]. destruct (step_repr sizes Hs Hp m l o l1 R E) as (m1 & E1 & R1).
  assert (S : mv_step_d m o = mv_step m o).
  { destruct o; cbn [mv_step_d mv_step] in *; auto; try (apply (block_debug m 0)); try (apply (block_debug m t)).
    rewrite (set_nested_debug sizes Hs Hp m l) by auto. cbn [mv_spec_step] in E. destruct (i <? length l); cbn [andb] in E; [|discriminate]. destruct (e <? length sizes); cbn [andb]; [|discriminate].
    cbn [mv_op_fits] in Fo. unfold mv_value_fits in Fo. assert (S8 := at_most_8 sizes Hs e). destruct (Nat.eqb_spec (nth e sizes 0) 8) as [E8|N8]; cbn [orb]; auto.
    destruct Fo as [Fo|(Fo & Fv)]; [lia|]. assert (V : (v < 2 ^ 56)%N). { eapply N.lt_le_trans; [exact Fv|]. change 256%N with (2 ^ 8)%N. rewrite <- N.pow_mul_r. apply N.pow_le_mono_r; lia. }
    rewrite (proj2 (N.ltb_lt v (2 ^ 56))) by auto. rewrite (proj2 (Nat.leb_le 1 _)) by auto. rewrite (proj2 (N.ltb_lt v (256 ^ _))) by auto. reflexivity. }
  rewrite S, E1. cbn [bind]. eauto.
Qed.
Theorem multiple_debug : forall sizes ops l, Forall (fun s => s <= 8) sizes -> 0 < list_sum sizes -> mv_spec_run sizes [] ops = Some l ->
  Forall (fun o => match o with MVSet _ e v => nth e sizes 0 = 8 \/ 1 <= nth e sizes 0 /\ (v < 256 ^ N.of_nat (nth e sizes 0%nat))%N | _ => True end) ops ->
  exists m, mv_run_d sizes ops = Ok m /\ mv_run sizes ops = Ok m /\
    (forall i e, mv_nested_d m i e = if (e <? length sizes) && (i <? length l) then Ok (nth e (nth i l []) 0%N) else Throw) /\
    (forall i e v, length l <= i \/ length sizes <= e -> mv_set_nested_d m i e v = Throw) /\
    (forall i e v, i < length l -> e < length sizes -> nth e sizes 0 < 8 -> (v < 2 ^ 56)%N -> nth e sizes 0 = 0 \/ (256 ^ N.of_nat (nth e sizes 0%nat) <= v)%N -> mv_set_nested_d m i e v = Throw) /\
    (forall i e v, i < length l -> e < length sizes -> nth e sizes 0 < 8 -> (2 ^ 56 <= v)%N -> mv_set_nested_d m i e v = UB) /\
    (forall i e t v, mv_block_get_d m i e = mv_block_get m i e /\ mv_block_restricted_get_d m t i e = mv_block_restricted_get m t i e /\
       mv_block_set_d m i e v = mv_block_set m i e v /\ mv_block_restricted_set_d m t i e v = mv_block_restricted_set m t i e v).
Proof.
  intros sizes ops l Hs Hp H F. destruct (run_repr sizes Hs Hp ops _ [] l (make_repr sizes) H) as (m & E & R). exists m.
  split; [unfold mv_run_d; rewrite (mv_run_d_repr sizes ops _ [] l Hs Hp (make_repr sizes) H); [exact E|exact F]|].
  split; [auto|]. split; [intros; now apply nested_debug|]. split.
  { intros i e v O. rewrite (set_nested_debug sizes Hs Hp m l) by auto. destruct (Nat.ltb_spec e (length sizes)), (Nat.ltb_spec i (length l)); auto; lia. }
  split.
  { intros i e v Hi He N8 V O. rewrite (set_nested_debug sizes Hs Hp m l) by auto. rewrite !(proj2 (Nat.ltb_lt _ _)) by auto. cbn [andb]. rewrite (proj2 (Nat.eqb_neq _ 8)) by lia. cbn [orb].
    rewrite (proj2 (N.ltb_lt _ (2 ^ 56))) by auto. destruct (Nat.leb_spec 1 (nth e sizes 0)); cbn [andb]; auto. destruct O as [O|O]; [lia|]. rewrite (proj2 (N.ltb_ge _ _)) by auto. reflexivity. }
  split.
  { intros i e v Hi He N8 V. rewrite (set_nested_debug sizes Hs Hp m l) by auto. rewrite !(proj2 (Nat.ltb_lt _ _)) by auto. cbn [andb]. rewrite (proj2 (Nat.eqb_neq _ 8)) by lia. cbn [orb].
    rewrite (proj2 (N.ltb_ge _ (2 ^ 56))) by auto. reflexivity. }
  intros. apply block_debug.
Qed.

(** ** bit_util *)
Theorem masks_debug : forall w,
  ((w < 64)%N -> WidthMask_d w = Ok (2 ^ w - 1)%N /\ OffsetMask_d w = Ok (2 ^ w)%N) /\
  WidthMask_d 64 = UB /\ OffsetMask_d 64 = Throw /\ ((64 < w)%N -> WidthMask_d w = Throw /\ OffsetMask_d w = Throw).
Proof.
  intros w. split; [|split; [reflexivity|split; [reflexivity|]]].
  - intros W. unfold WidthMask_d, OffsetMask_d, WidthMask, OffsetMask, shl64. rewrite (proj2 (N.leb_le w 64)) by lia. rewrite (proj2 (N.ltb_lt w 64)) by lia. cbn [assert_that bind].
    assert (P : wshl 1 w = (2 ^ w)%N). { unfold wshl. rewrite N.shiftl_1_l. unfold wrap64, wrap. apply N.mod_small. apply N.pow_lt_mono_r; lia. }
    rewrite P. split; auto. f_equal. unfold wsub. assert (2 ^ w < 2 ^ 64)%N by (apply N.pow_lt_mono_r; lia). assert (0 < 2 ^ w)%N by (apply N.neq_0_lt_0, N.pow_nonzero; lia).
    replace (2 ^ w + 2 ^ 64 - 1)%N with (2 ^ w - 1 + 1 * 2 ^ 64)%N by lia. rewrite N.mod_add by lia. apply N.mod_small. lia.
  - intros W. unfold WidthMask_d, OffsetMask_d. rewrite (proj2 (N.leb_gt w 64)) by lia. rewrite (proj2 (N.ltb_ge w 64)) by lia. auto.
Qed.
