(** rank(c, i) of WaveletTree with assertions on. *)
From Coq Require Import List NArith ZArith Arith Bool Lia.
From Verif Require Import Base Spec Spec2 BitUtilModel BitUtilProof2 BitVectorModel BitVectorProof BitVectorProof2 CalcModel CalcProof FitVectorModel FitVectorProof SuccinctModel SuccinctProof SuccinctProof3 DacProof FoDebugModel WaveletModel WaveletProof WaveletExact WaveletDebugModel.
Import ListNotations.
Local Open Scope nat_scope.

(** ** The bits behind the last one are zero *)
Definition clean (v : bitvec) : Prop := forall i, bv_size v <= i -> bitat (bv_words v) i = false.
Lemma push_clean : forall v l b v', bv_rep v l -> clean v -> bv_push_back v b = Ok v' -> clean v'.
Proof.
  intros v l b v' (Hz & Hl & Hs & Hb) C E. unfold bv_push_back, bv_resize in E. rewrite (proj2 (Nat.ltb_ge _ _)) in E by lia. rewrite (proj2 (Nat.ltb_lt _ _)) in E by lia.
  destruct (fill_spec (lresize (bv_words v) (get_word_size (bv_size v + 1)) 0%N) (bv_size v) (bv_size v + 1) b) as (ws & Ef & L & S & B).
  - now apply small_lresize.
  - rewrite lresize_length. apply gws_ge.
  - rewrite Ef in E. cbn [bind] in E. assert (v' = BV (bv_size v + 1) ws) by congruence. subst v'. clear E. intros i Hi. cbn [bv_size bv_words] in *. rewrite B.
    rewrite (proj2 (Nat.ltb_ge i (bv_size v + 1))) by lia. rewrite andb_false_r.
    destruct (Nat.lt_ge_cases i (64 * get_word_size (bv_size v + 1))) as [G|G].
    + rewrite bitat_lresize by exact G. match goal with |- (if ?x then _ else _) = _ => destruct x end; [|reflexivity]. apply C. lia.
    + unfold bitat. rewrite nth_overflow; [apply N.bits_0|]. rewrite lresize_length. apply Nat.div_le_lower_bound; lia.
Qed.
Lemma push_size : forall v b v', bv_push_back v b = Ok v' -> bv_size v' = bv_size v + 1.
Proof.
  intros v b v' E. unfold bv_push_back, bv_resize in E. rewrite (proj2 (Nat.ltb_ge _ _)) in E by lia. rewrite (proj2 (Nat.ltb_lt _ _)) in E by lia.
  apply bind_Ok_inv in E as (ws & _ & E). injection E as <-. reflexivity.
Qed.
Lemma lget_in : forall A (l : list A) i x, lget l i = Ok x -> In x l.
Proof. intros A l i x E. unfold lget in E. destruct (nth_error l i) eqn:H; [|discriminate]. injection E as <-. eapply nth_error_In; eauto. Qed.
Lemma lset_forall : forall A (P : A -> Prop) l i x l', Forall P l -> P x -> lset l i x = Ok l' -> Forall P l'.
Proof.
  intros A P l i x l' F Hx E. unfold lset in E. destruct (Nat.ltb_spec i (length l)); [|discriminate]. injection E as <-. apply Forall_forall. intros y Hy.
  apply In_nth with (d := x) in Hy as (j & Hj & <-). rewrite nth_upd. destruct ((_ =? _) && _); [exact Hx|]. rewrite upd_length in Hj. rewrite Forall_forall in F. apply F, nth_In. exact Hj.
Qed.
Definition tidy (v : bitvec) : Prop := clean v /\ exists l, bv_rep v l.
Lemma insert_tidy : forall k nodes id x nodes', Forall tidy nodes -> wt_insert k nodes id x = Ok nodes' -> Forall tidy nodes'.
Proof.
  induction k as [|k IH]; intros nodes id x nodes' F E; cbn [wt_insert] in E; [injection E as <-; exact F|].
  apply bind_Ok_inv in E as (n & En & E). apply bind_Ok_inv in E as (n' & En' & E). apply bind_Ok_inv in E as (ns & Es & E). eapply IH; [|exact E].
  eapply lset_forall; [exact F| |exact Es]. rewrite Forall_forall in F. destruct (F n (lget_in _ _ _ _ En)) as (C & l & R). split; [eapply push_clean; eauto|].
  destruct (bv_push_rep n l (N.testbit x (N.of_nat k)) R) as (n2 & E2 & R2). rewrite E2 in En'. injection En' as <-. eauto.
Qed.
Lemma make_tidy : forall l t, wt_make l = Ok t -> Forall (fun n => clean (sb_bits n)) (wt_nodes t).
Proof.
  intros l t E. unfold wt_make in E. destruct l as [|a l']; [discriminate|]. apply bind_Ok_inv in E as (h & _ & E). destruct (32 <=? h); [discriminate|].
  apply bind_Ok_inv in E as (src & Es & E). apply bind_Ok_inv in E as (nodes & En & E). injection E as <-. cbn [wt_nodes].
  assert (Ts : Forall tidy src).
  { assert (T0 : Forall tidy (repeat bv_default (2 ^ h - 1))).
    { apply Forall_forall. intros v Hv. apply repeat_spec in Hv. subst v. split; [|exists []; apply bv_default_rep]. intros i _. unfold bitat, bv_default. cbn [bv_words]. destruct (i / 64) as [|[|]]; apply N.bits_0. }
    revert Es T0. generalize (a :: l') (repeat bv_default (2 ^ h - 1)). intros xs. induction xs as [|x xs IH]; intros ns E T; cbn [foldM] in E; [injection E as <-; exact T|].
    apply bind_Ok_inv in E as (n1 & E1 & E). eapply IH; [exact E|]. eapply insert_tidy; eauto. }
  clear Es. revert nodes En. induction Ts as [|v src (C & lv & R) F IH]; intros nodes E; cbn [mapM] in E; [injection E as <-; constructor|].
  apply bind_Ok_inv in E as (s & E1 & E). apply bind_Ok_inv in E as (ss & E2 & E). injection E as <-. constructor; [|auto].
  destruct (sb_build_total v lv false R) as (s' & Es & Eb & _). rewrite Es in E1. injection E1 as <-. rewrite Eb. exact C.
Qed.

(** ** The end of a node's sequence *)
Lemma end_get : forall n bs, sbv_ok n bs -> clean (sb_bits n) ->
  sb_get n (length bs) = if (length bs mod 64 =? 0) && negb (length bs =? 0) then UB else Ok false.
Proof.
  intros n bs ((Hz & Hl & Hs & Hb) & _) C. unfold sb_get, bv_get. rewrite make_ref_Ok. cbn [bind].
  destruct (Nat.eqb_spec (length bs mod 64) 0) as [M|M]; destruct (Nat.eqb_spec (length bs) 0) as [Z|Z]; cbn [andb negb].
  - rewrite ref_get_spec by (rewrite Hl, Z; cbn; lia). f_equal. apply C. lia.
  - unfold ref_get. cbn [ref_seg]. unfold wgetZ. destruct (Z.ltb_spec (Z.of_nat (length bs / 64)) 0); [lia|]. rewrite Nat2Z.id.
    assert (X : lget (bv_words (sb_bits n)) (length bs / 64) = UB); [|rewrite X; reflexivity].
    apply lget_UB. rewrite Hl. unfold get_word_size. destruct (Nat.eqb_spec (length bs) 0); [lia|].
    pose proof (Nat.div_mod (length bs) 64). pose proof (Nat.div_mod (length bs - 1) 64). pose proof (Nat.mod_upper_bound (length bs - 1) 64).
    assert ((length bs - 1) / 64 < length bs / 64); [|lia]. apply Nat.div_lt_upper_bound; lia.
  - rewrite Z in M. exfalso. apply M. reflexivity.
  - rewrite ref_get_spec; [f_equal; apply C; lia|]. rewrite Hl. pose proof (gws_ge (length bs)). destruct (Nat.eq_dec (length bs) (64 * get_word_size (length bs))) as [Q|]; [|lia]. exfalso. apply M. rewrite Q, Nat.mul_comm. apply Nat.mod_mul. lia.
Qed.
Lemma nbits_length : forall k p l, length (nbits k p l) = cnt (S k) p l.
Proof. intros. unfold nbits, cnt. now rewrite map_length. Qed.
Lemma bitk_0 : forall k, bitk k 0 = false.
Proof. intros. apply N.bits_0. Qed.
Lemma pre_0 : forall k, pre k 0 = 0%N.
Proof. intros. apply N.shiftr_0_l. Qed.
Definition below (k : nat) (l : list N) : nat := count_if (fun x => (x <? 2 ^ N.of_nat k)%N) l.
Lemma cnt_below : forall k l, cnt k 0 l = below k l.
Proof.
  intros. unfold cnt, below, count_if. f_equal. apply filter_ext. intros x. unfold same, pre. rewrite N.shiftr_div_pow2. pose proof (N.pow_nonzero 2 (N.of_nat k) ltac:(lia)) as P.
  destruct (N.ltb_spec x (2 ^ N.of_nat k)) as [H|H].
  - rewrite N.div_small by exact H. reflexivity.
  - apply N.eqb_neq. intros Q. apply N.div_small_iff in Q; lia.
Qed.

(** ** An element in range *)
Lemma rank_d_in : forall h nodes l c i, wok h nodes l -> (N.of_nat (length l) < 2 ^ 64)%N -> i < length l -> let e := nth i l 0%N in (e < 2 ^ N.of_nat h)%N ->
  forall k, k <= h -> pre k c = pre k e ->
  wt_rank_c_loop_d k nodes c (nid (h - k) (pre k e)) (cnt k (pre k e) (firstn i l)) = if (c =? e)%N then Ok (cnt 0 (pre 0 e) (firstn i l)) else Throw.
Proof.
  intros h nodes l c i W HL Hi e He. induction k as [|k IH]; intros Hk P.
  - cbn [wt_rank_c_loop_d]. rewrite !small31_mod in P. rewrite P, N.eqb_refl. reflexivity.
  - cbn [wt_rank_c_loop_d]. destruct (node_get h nodes l k e W ltac:(lia) He) as (n & E & O). rewrite E. cbn [bind]. fold (bitk k c).
    assert (G : sb_get n (cnt (S k) (pre (S k) e) (firstn i l)) = Ok (bitk k e)) by (apply (own_get n k l i Hi O)). rewrite G. cbn [bind].
    destruct (Bool.eqb (bitk k c) (bitk k e)) eqn:Q; cbn [assert_that bind].
    + apply eqb_prop in Q. rewrite Q. rewrite (child_ok n k (pre (S k) e) l i (bitk k e) O HL (own_safe _ l i Hi)). cbn [bind].
      rewrite next_of by lia. rewrite <- pre_S. apply IH; [lia|]. rewrite (pre_S k c), (pre_S k e), P, Q. reflexivity.
    + apply eqb_false_iff in Q. destruct (N.eqb_spec c e) as [->|]; [contradiction|reflexivity].
Qed.
(** ** The end *)
Lemma rank_d_end : forall h nodes l c, wok h nodes l -> Forall (fun n => clean (sb_bits n)) nodes -> (N.of_nat (length l) < 2 ^ 64)%N ->
  forall k, k <= h -> (c < 2 ^ N.of_nat k)%N ->
  ((exists k', 1 <= k' <= k /\ below k' l mod 64 = 0 /\ below k' l <> 0 /\ (c < 2 ^ N.of_nat k')%N) -> wt_rank_c_loop_d k nodes c (nid (h - k) 0) (cnt k 0 l) = UB) /\
  (~ (exists k', 1 <= k' <= k /\ below k' l mod 64 = 0 /\ below k' l <> 0 /\ (c < 2 ^ N.of_nat k')%N) -> wt_rank_c_loop_d k nodes c (nid (h - k) 0) (cnt k 0 l) = if (c =? 0)%N then Ok (below 0 l) else Throw).
Proof.
  intros h nodes l c W Cl HL. induction k as [|k IH]; intros Hk Hc.
  - cbn [wt_rank_c_loop_d]. split; [intros (k' & A & _); lia|]. intros _. change (2 ^ N.of_nat 0)%N with 1%N in Hc. replace c with 0%N by lia. rewrite cnt_below. reflexivity.
  - cbn [wt_rank_c_loop_d]. destruct (node_get h nodes l k 0 W ltac:(lia)) as (n & E & O); [apply N.neq_0_lt_0, N.pow_nonzero; lia|]. rewrite pre_0 in *. rewrite E. cbn [bind]. fold (bitk k c).
    assert (Cn : clean (sb_bits n)) by (rewrite Forall_forall in Cl; apply Cl; eapply lget_in; exact E).
    pose proof (end_get n _ O Cn) as G. rewrite nbits_length in G. rewrite G. pose proof (cnt_below (S k) l) as Cb.
    destruct (Nat.eqb_spec (cnt (S k) 0 l mod 64) 0) as [M|M]; destruct (Nat.eqb_spec (cnt (S k) 0 l) 0) as [Z|Z]; cbn [andb negb bind].
    2: { split; [reflexivity|]. intros N0. exfalso. apply N0. exists (S k). rewrite <- Cb. split; [lia|auto]. }
    2: { exfalso. rewrite Z in M. apply M. reflexivity. }
    all: assert (Top : forall k', 1 <= k' <= S k -> below k' l mod 64 = 0 -> below k' l <> 0 -> k' <= k) by
       (intros k' K1 K2 K3; destruct (Nat.eq_dec k' (S k)) as [->|]; [|lia]; exfalso; rewrite <- Cb in *; lia).
    all: assert (Sf : cnt (S k) 0 (firstn (length l) l) < cnt (S k) 0 l \/ cnt (S k) 0 l mod 64 <> 0 \/ cnt (S k) 0 l = 0) by auto.
    all: pose proof (child_ok n k 0 l (length l) false O HL Sf) as Ch; rewrite firstn_all in Ch; change (2 * 0 + N.b2n false)%N with 0%N in Ch.
    all: destruct (bitk k c) eqn:Bk; cbn [eqb assert_that bind].
    all: try (assert (Hck : (c < 2 ^ N.of_nat k)%N) by
       (destruct (N.lt_ge_cases c (2 ^ N.of_nat k)) as [|Q]; [assumption|exfalso]; unfold bitk in Bk; rewrite (N.testbit_odd c), N.shiftr_div_pow2 in Bk;
        replace (c / 2 ^ N.of_nat k)%N with 1%N in Bk; [discriminate|]; apply N.div_unique with (c - 2 ^ N.of_nat k)%N; [|lia]; replace (N.of_nat (S k)) with (N.succ (N.of_nat k)) in Hc by lia; rewrite N.pow_succ_r' in Hc; lia);
       rewrite Ch; cbn [bind]; change (next_id (nid (h - S k) 0) false) with (next_id (nid (h - S k) 0) (false)); rewrite nid_next; change (2 * 0 + N.b2n false)%N with 0%N; replace (S (h - S k)) with (h - k) by lia;
       destruct (IH ltac:(lia) Hck) as (A & B); split;
       [intros (k' & K1 & K2 & K3 & K4); apply A; exists k'; pose proof (Top k' K1 K2 K3); split; [lia|auto]
       |intros N0; apply B; intros (k' & K1 & K2 & K3 & K4); apply N0; exists k'; split; [lia|auto]]).
    all: assert (Big : (2 ^ N.of_nat k <= c)%N) by
       (destruct (N.lt_ge_cases c (2 ^ N.of_nat k)) as [Q|]; [exfalso|assumption]; unfold bitk in Bk; rewrite (N.testbit_odd c), N.shiftr_div_pow2, N.div_small in Bk by exact Q; discriminate).
    all: split; [intros (k' & K1 & K2 & K3 & K4); exfalso; pose proof (Top k' K1 K2 K3) as T; pose proof (N.pow_le_mono_r 2 (N.of_nat k') (N.of_nat k) ltac:(lia) ltac:(lia)); lia|].
    all: intros _; destruct (N.eqb_spec c 0) as [->|]; [exfalso; pose proof (N.pow_nonzero 2 (N.of_nat k) ltac:(lia)); lia|reflexivity].
Qed.
Lemma rank_d_mod : forall h nodes c, forall k id idx, k <= h -> wt_rank_c_loop_d k nodes c id idx = wt_rank_c_loop_d k nodes (c mod 2 ^ N.of_nat h) id idx.
Proof.
  intros h nodes c. induction k; intros id idx Hk; auto. cbn [wt_rank_c_loop_d].
  rewrite N.mod_pow2_bits_low by lia. destruct (lget nodes (id - 1)); cbn [bind]; auto. destruct (sb_get _ _); cbn [bind]; auto. destruct (assert_that _); cbn [bind]; auto.
  destruct (wt_child _ _ _); cbn [bind]; auto. apply IHk. lia.
Qed.
Theorem rank_debug : forall l c, l <> [] -> Forall (fun x => (x < 2 ^ 31)%N) l -> (N.of_nat (length l) < 2 ^ 63)%N -> (c < 256)%N ->
  exists t, wt_make l = Ok t /\ let h := bits_needed (max_element l) in let c' := (c mod 2 ^ N.of_nat h)%N in
  (forall i, i < length l -> wt_rank_c_d t c i = if (c' =? nth i l 0)%N then Ok (count_if (fun x => (x =? c')%N) (firstn i l)) else Throw) /\
  ((exists k, 1 <= k <= h /\ (c' < 2 ^ N.of_nat k)%N /\ count_if (fun x => (x <? 2 ^ N.of_nat k)%N) l mod 64 = 0 /\ count_if (fun x => (x <? 2 ^ N.of_nat k)%N) l <> 0) -> wt_rank_c_d t c (length l) = UB) /\
  (~ (exists k, 1 <= k <= h /\ (c' < 2 ^ N.of_nat k)%N /\ count_if (fun x => (x <? 2 ^ N.of_nat k)%N) l mod 64 = 0 /\ count_if (fun x => (x <? 2 ^ N.of_nat k)%N) l <> 0) ->
   wt_rank_c_d t c (length l) = if (c' =? 0)%N then Ok (count_if (fun x => (x =? 0)%N) l) else Throw).
Proof.
  intros l c Hl F HL Hc. pose proof (length64 _ _ HL) as HL'. destruct (wt_make_ok l Hl F) as (t & E & W & Fh & H1 & Eh). exists t. split; auto. rewrite <- Eh. clear Eh. intros h c'. change (wok h (wt_nodes t) l) in W.
  assert (Hc' : (c' < 2 ^ N.of_nat h)%N) by (apply N.mod_lt, N.pow_nonzero; lia).
  assert (Q : forall i, wt_rank_c_d t c i = wt_rank_c_loop_d h (wt_nodes t) c' 1 i).
  { intros i. unfold wt_rank_c_d. fold h. rewrite (N.mod_small c 256) by exact Hc. apply rank_d_mod. lia. }
  split.
  - intros i Hi. rewrite Q. assert (He : (nth i l 0 < 2 ^ N.of_nat h)%N) by (rewrite Forall_forall in Fh; apply Fh, nth_In; auto).
    pose proof (rank_d_in h _ l c' i W HL' Hi He h (le_n _)) as R. rewrite Nat.sub_diag, !pre_top in R by auto. rewrite start_idx in R by (auto; lia). rewrite small31_mod, cnt_0 in R.
    change (nid 0 0) with 1 in R. rewrite (R eq_refl). destruct (N.eqb_spec c' (nth i l 0%N)) as [->|]; reflexivity.
  - destruct (rank_d_end h _ l c' W (make_tidy l t E) HL' h (le_n _) Hc') as (A & B). rewrite Nat.sub_diag in A, B. change (nid 0 0) with 1 in A, B.
    rewrite (cnt_top h l Fh) in A, B. rewrite Q. split.
    + intros (k & K1 & K2 & K3 & K4). apply A. exists k. auto.
    + intros N0. rewrite B by (intros (k & K1 & K2 & K3 & K4); apply N0; exists k; auto). destruct (c' =? 0)%N; [|reflexivity]. f_equal. unfold below, count_if. f_equal. apply filter_ext. intros x. change (2 ^ N.of_nat 0)%N with 1%N.
      destruct (N.ltb_spec x 1); destruct (N.eqb_spec x 0); auto; lia.
Qed.
