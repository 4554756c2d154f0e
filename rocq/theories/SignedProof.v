(** Proofs about sequences of signed numbers (SignedModel.v) *)
From Coq Require Import List NArith ZArith Lia Bool Arith.
From Verif Require Import Base Spec Spec2 Spec4 Spec7 Spec22 BitUtilModel BitUtilProof CalcModel CalcProof BitVectorModel BitVectorProof SuccinctModel FitVectorModel FitVectorProof FitVectorProof2
  WaveletModel WaveletProof WaveletExact DacModel DacProof DacExact CHTModel CDRWModel CDRWProof CDRWAll SignedModel.
Import ListNotations.
Local Open Scope nat_scope.
Ltac Zify.zify_post_hook ::= idtac.

Lemma to_word_pos : forall x, (0 <= x < 2 ^ 63)%Z -> to_word x = Z.to_N x /\ (to_word x < 2 ^ 63)%N.
Proof.
  intros x H. unfold to_word. rewrite Z.mod_small by lia. split; auto. apply N2Z.inj_lt. rewrite Z2N.id by lia. exact (proj2 H).
Qed.
Lemma to_word_lt : forall x, (to_word x < 2 ^ 64)%N.
Proof. intros x. unfold to_word. apply N2Z.inj_lt. pose proof (Z.mod_pos_bound x (2 ^ 64) eq_refl). rewrite Z2N.id by lia. change (Z.of_N (2 ^ 64)) with (2 ^ 64)%Z. lia. Qed.
Lemma to_word_neg : forall x, (- 2 ^ 63 <= x < 0)%Z -> (2 ^ 63 <= to_word x)%N.
Proof.
  intros x H. unfold to_word. apply N2Z.inj_le. change (Z.of_N (2 ^ 63)) with (2 ^ 63)%Z. rewrite <- (Z.mod_unique x (2 ^ 64) (-1) (x + 2 ^ 64)); [|left|]; lia.
Qed.
Lemma to_word_bit : forall x j, j < 64 -> N.testbit (to_word x) (N.of_nat j) = Z.testbit x (Z.of_nat j).
Proof.
  intros x j H. unfold to_word. rewrite <- Z.testbit_of_N. pose proof (Z.mod_pos_bound x (2 ^ 64) eq_refl). rewrite Z2N.id by lia. rewrite nat_N_Z, Z.mod_pow2_bits_low by lia. reflexivity.
Qed.
Lemma low_bits_lt : forall w x, (low_bits w x < 2 ^ N.of_nat w)%N.
Proof.
  intros w x. unfold low_bits. assert (P : (0 < 2 ^ Z.of_nat w)%Z) by (apply Z.pow_pos_nonneg; lia). pose proof (Z.mod_pos_bound x _ P). apply N2Z.inj_lt. rewrite Z2N.id by lia. rewrite N2Z.inj_pow, nat_N_Z. apply H.
Qed.
Lemma low_bits_bit : forall w x j, j < w -> N.testbit (low_bits w x) (N.of_nat j) = Z.testbit x (Z.of_nat j).
Proof.
  intros w x j H. unfold low_bits. rewrite <- Z.testbit_of_N. assert (P : (0 < 2 ^ Z.of_nat w)%Z) by (apply Z.pow_pos_nonneg; lia). pose proof (Z.mod_pos_bound x _ P). rewrite Z2N.id by lia. rewrite nat_N_Z, Z.mod_pow2_bits_low by lia. reflexivity.
Qed.
Lemma low_bits_small : forall w x, (0 <= x)%Z -> (Z.to_N x < 2 ^ N.of_nat w)%N -> low_bits w x = Z.to_N x.
Proof.
  intros w x H L. unfold low_bits. rewrite Z.mod_small; auto. split; auto. apply N2Z.inj_lt in L. rewrite Z2N.id, N2Z.inj_pow, nat_N_Z in L by auto. exact L.
Qed.

Lemma max_signed : forall l x m, greatest m (x :: l) -> max_element_signed x l = m.
Proof.
  intros l x m (I & G). unfold max_element_signed. revert x I G. induction l as [|y l IH]; intros x I G.
  - destruct I as [I|[]]. exact I.
  - simpl fold_left. apply IH.
    + destruct I as [<-|[<-|I]]; [left; pose proof (G y); simpl in *; lia|left; pose proof (G x); simpl in *; lia|right; auto].
    + intros z [<-|Hz]; [destruct (Z.max_spec x y) as [[_ ->]|[_ ->]]; apply G; simpl; auto|apply G; simpl; auto].
Qed.
Lemma max_signed_in : forall l x, In (max_element_signed x l) (x :: l).
Proof.
  unfold max_element_signed. induction l as [|y l IH]; intros x; [left; reflexivity|]. simpl fold_left. destruct (IH (Z.max x y)) as [E|E]; [|simpl; auto]. rewrite <- E. destruct (Z.max_spec x y) as [[_ ->]|[_ ->]]; simpl; auto.
Qed.

(** ** FitVector *)
Lemma push_words : forall w xs v n T, 1 <= w <= 63 -> fv_tape w v n T ->
  exists v' T', foldM (fun v x => fv_push_back v (to_word x)) xs v = Ok v' /\ fv_tape w v' (n + length xs) T' /\ (forall q, q < n * w -> T' q = T q) /\
    forall i j, i < length xs -> j < w -> T' ((n + i) * w + j) = N.testbit (to_word (nth i xs 0%Z)) (N.of_nat j).
Proof.
  intros w xs. induction xs as [|x xs IH]; intros v n T Hw R.
  - exists v, T. cbn [length foldM]. rewrite Nat.add_0_r. split; auto. split; auto. split; auto. intros; lia.
  - destruct (fv_step_tape w (FVPush (to_word x)) v n T (n + 1, tape_store w (n * w) (to_word x) (tape_cut ((n + 1) * w) T)) Hw) as (v1 & E1 & R1); [apply to_word_lt|auto|reflexivity|]. cbn [fst snd fv_step] in *.
    destruct (IH v1 (n + 1) _ Hw R1) as (v' & T' & E & R' & P & Q). exists v', T'. cbn [foldM length]. rewrite E1. cbn [bind]. split; auto. split; [now replace (n + S (length xs)) with (n + 1 + length xs) by lia|].
    split.
    + intros q Hq. rewrite P by lia. unfold tape_store. rewrite (proj2 (Nat.ltb_lt _ _)) by lia. unfold tape_cut. pose proof (word_end_ge ((n + 1) * w)). rewrite (proj2 (Nat.ltb_lt _ _)) by lia. reflexivity.
    + intros [|i] j Hi Hj; [|replace (n + S i) with (n + 1 + i) by lia; apply Q; lia]. rewrite Nat.add_0_r, P by lia. cbn [nth]. unfold tape_store. rewrite (proj2 (Nat.ltb_ge _ _)) by lia. rewrite (proj2 (Nat.ltb_lt _ _)) by lia. do 2 f_equal. lia.
Qed.

Lemma make_tape : forall w, fv_tape w (fv_make w) 0 (fun _ => false).
Proof. intros w. unfold fv_tape. cbn. split; auto. split; auto. split; auto. split; [constructor|]. intros q. unfold bitat. destruct (q / 64); apply N.bits_0. Qed.

Theorem fv_signed : forall l m, Forall signed_value l -> greatest m l ->
  ((m < 0)%Z -> fv_of_signed l = UB) /\
  ((0 <= m)%Z -> exists v, fv_of_signed l = Ok v /\ fv_size v = length l /\ fv_width v = bits_needed (Z.to_N m) /\
     forall i, fv_at v i = match nth_error l i with Some x => Ok (low_bits (bits_needed (Z.to_N m)) x) | None => Throw end).
Proof.
  intros l m F G. destruct l as [|x0 l0]; [destruct (proj1 G)|]. pose proof (proj1 (Forall_forall _ _) F m (proj1 G)) as Sm. unfold signed_value in Sm.
  unfold fv_of_signed, minimal_word_size_signed. rewrite (max_signed _ _ _ G). set (l := x0 :: l0) in *. clearbody l. split; intros Hm.
  - rewrite SizeFitsInBits_UB; [reflexivity|]. apply to_word_neg. lia.
  - destruct (to_word_pos m ltac:(lia)) as (E & L). rewrite SizeFitsInBits_ok by auto. rewrite E in *. cbn [bind]. set (w := bits_needed (Z.to_N m)).
    assert (Hw : 1 <= w <= 63) by (split; [apply bits_needed_spec|apply bits_needed_le; auto; lia]).
    destruct (push_words w l (fv_make w) 0 _ Hw (make_tape w)) as (v & T & Ev & R & _ & Q). exists v. rewrite Ev. cbn [bind]. pose proof R as (W & Z & _). split; auto. split; auto. split; auto.
    intros i. unfold fv_at. rewrite Z. simpl plus. destruct (Nat.leb_spec (length l) i) as [H|H].
    + rewrite (proj2 (nth_error_None l i)) by auto. reflexivity.
    + rewrite (nth_error_nth' l 0%Z H). rewrite (fv_get_tape w v _ T i Hw R) by exact H. f_equal. apply num_ext with w; [apply tape_num_lt|apply low_bits_lt|].
      intros j Hj. rewrite tape_num_bit, low_bits_bit by auto. specialize (Q i j H Hj). simpl plus in Q. rewrite Q. apply to_word_bit. lia.
Qed.

(** ** WaveletTree *)
Lemma insert_signed : forall k nodes id v y, (forall j, j < k -> N.testbit y (N.of_nat j) = Z.testbit v (Z.of_nat j)) -> wt_insert_signed k nodes id v = wt_insert k nodes id y.
Proof.
  induction k as [|k IH]; intros nodes id v y H; auto. cbn [wt_insert_signed wt_insert]. rewrite Z.shiftr_spec, Z.add_0_l by lia. rewrite <- H by lia.
  destruct (lget nodes (id - 1)) as [n| | |]; auto. cbn [bind]. destruct (bv_push_back n _) as [n'| | |]; auto. cbn [bind]. destruct (lset nodes (id - 1) n') as [ns| | |]; auto. cbn [bind]. apply IH. intros j Hj. apply H. lia.
Qed.
Lemma inserts_signed : forall h l nodes, foldM (fun nodes v => wt_insert_signed h nodes 1 v) l nodes = foldM (fun nodes v => wt_insert h nodes 1 v) (map (low_bits h) l) nodes.
Proof.
  intros h. induction l as [|x l IH]; intros nodes; auto. cbn [foldM map]. rewrite (insert_signed h nodes 1 x (low_bits h x)) by (intros; now apply low_bits_bit). destruct (wt_insert h nodes 1 (low_bits h x)); auto. cbn [bind]. apply IH.
Qed.

Lemma low_max : forall l m, greatest m l -> (0 <= m < 2 ^ 63)%Z -> bits_needed (max_element (map (low_bits (bits_needed (Z.to_N m))) l)) = bits_needed (Z.to_N m).
Proof.
  intros l m (I & G) Hm. set (h := bits_needed (Z.to_N m)). destruct (bits_needed_spec (Z.to_N m)) as (H1 & H2 & H3). fold h in H1, H2, H3.
  assert (A : (max_element (map (low_bits h) l) < 2 ^ N.of_nat h)%N) by (apply max_element_bound; [apply N.neq_0_lt_0, N.pow_nonzero; lia|apply Forall_forall; intros y Hy; apply in_map_iff in Hy; destruct Hy as (z & <- & _); apply low_bits_lt]).
  assert (B : (Z.to_N m <= max_element (map (low_bits h) l))%N) by (apply max_element_le; rewrite <- (low_bits_small h m ltac:(lia) H2); now apply in_map).
  apply Nat.le_antisymm; [apply bits_needed_le; auto|].
  destruct (Nat.le_gt_cases h 1) as [Q|Q]; [pose proof (proj1 (bits_needed_spec (max_element (map (low_bits h) l)))); lia|].
  destruct (Nat.le_gt_cases h (bits_needed (max_element (map (low_bits h) l)))) as [P|P]; auto. exfalso.
  assert (C := H3 _ (proj1 (bits_needed_spec (max_element (map (low_bits h) l)))) P). pose proof (proj1 (proj2 (bits_needed_spec (max_element (map (low_bits h) l))))) as D. lia.
Qed.

Lemma wt_make_unfold : forall l, l <> [] -> wt_make l =
  (do height <- SizeFitsInBits (max_element l); if 32 <=? height then UB else
   do src <- foldM (fun nodes v => wt_insert height nodes 1 v) l (repeat bv_default (2 ^ height - 1));
   do nodes <- mapM (sb_build false) src; Ok (WT height (wrap64 (max_element l + 1)) nodes)).
Proof. intros [|x l] H; [congruence|reflexivity]. Qed.
Lemma wt_signed_unfold : forall l m, greatest m l -> wt_make_signed l =
  (do height <- SizeFitsInBits (to_word m); if 32 <=? height then UB else
   do src <- foldM (fun nodes v => wt_insert_signed height nodes 1 v) l (repeat bv_default (2 ^ height - 1));
   do nodes <- mapM (sb_build false) src; Ok (WT height (wrap64 (to_word m + 1)) nodes)).
Proof. intros [|x l] m G; [destruct (proj1 G)|]. unfold wt_make_signed. now rewrite (max_signed _ _ _ G). Qed.

Lemma wt_signed_same : forall l m, greatest m l -> (0 <= m < 2 ^ 31)%Z ->
  let l' := map (low_bits (bits_needed (Z.to_N m))) l in
  l' <> [] /\ Forall (fun x => (x < 2 ^ 31)%N) l' /\ bits_needed (max_element l') = bits_needed (Z.to_N m) /\
  exists t t', wt_make_signed l = Ok t /\ wt_make l' = Ok t' /\ wt_height t = wt_height t' /\ wt_nodes t = wt_nodes t'.
Proof.
  intros l m G Hm l'. set (h := bits_needed (Z.to_N m)) in *. assert (Hh : 1 <= h <= 31).
  { split; [apply bits_needed_spec|]. apply bits_needed_le; [|lia]. apply N2Z.inj_lt. rewrite Z2N.id by lia. exact (proj2 Hm). }
  assert (Ml : bits_needed (max_element l') = h) by (apply low_max; auto; lia).
  assert (Fl : Forall (fun x => (x < 2 ^ 31)%N) l').
  { apply Forall_forall. intros y Hy. apply in_map_iff in Hy. destruct Hy as (z & <- & _). apply N.lt_le_trans with (2 ^ N.of_nat h)%N; [apply low_bits_lt|]. change (2 ^ 31)%N with (2 ^ N.of_nat 31)%N. apply N.pow_le_mono_r; lia. }
  assert (Nl : l <> []) by (intros ->; destruct (proj1 G)). assert (Nl' : l' <> []) by (unfold l'; destruct l; [congruence|discriminate]).
  split; auto. split; auto. split; auto.
  destruct (wt_make_ok l' Nl' Fl) as (t' & E' & _ & _ & _ & H'). rewrite Ml in H'. pose proof E' as E0.
  assert (Em : (max_element l' < 2 ^ 63)%N) by (apply N.lt_trans with (2 ^ 31)%N; [apply max_element_bound; auto; reflexivity|reflexivity]).
  rewrite (wt_make_unfold l' Nl') in E'. rewrite SizeFitsInBits_ok, Ml in E' by auto. cbn [bind] in E'. rewrite (proj2 (Nat.leb_gt 32 h)) in E' by lia.
  rewrite (wt_signed_unfold l m G). destruct (to_word_pos m ltac:(lia)) as (Ew & Lw). rewrite SizeFitsInBits_ok by auto. rewrite Ew. fold h. cbn [bind]. rewrite (proj2 (Nat.leb_gt 32 h)) by lia.
  rewrite inserts_signed. fold l'.
  destruct (foldM (fun nodes v => wt_insert h nodes 1 v) l' (repeat bv_default (2 ^ h - 1))) as [src| | |]; try discriminate. cbn [bind] in *.
  destruct (mapM (sb_build false) src) as [nodes| | |]; try discriminate. cbn [bind] in *.
  eexists _, t'. split; [reflexivity|]. split; [exact E0|]. injection E' as <-. auto.
Qed.

Lemma query_same : forall t t' , wt_height t = wt_height t' -> wt_nodes t = wt_nodes t' ->
  (forall i, wt_get t i = wt_get t' i) /\ (forall i, wt_rank t i = wt_rank t' i) /\ (forall i, wt_access_and_rank t i = wt_access_and_rank t' i) /\
  (forall c i, wt_rank_c t c i = wt_rank_c t' c i) /\ wt_size t = wt_size t'.
Proof. intros t t' A B. unfold wt_get, wt_rank, wt_access_and_rank, wt_rank_c, wt_size. now rewrite A, B. Qed.

Lemma nth_map_low : forall h l i, nth i (map (low_bits h) l) 0%N = low_bits h (nth i l 0%Z).
Proof. intros h l i. change 0%N with (low_bits h 0) at 1. - apply map_nth. Qed.
Lemma count_map : forall A B (f : A -> B) p l, count_if p (map f l) = count_if (fun x => p (f x)) l.
Proof. intros A B f p l. unfold count_if. induction l as [|x l IH]; auto. cbn [map filter]. destruct (p (f x)); cbn [length]; auto. Qed.

Theorem wt_signed : forall l m, Forall signed_value l -> greatest m l -> (N.of_nat (length l) < 2 ^ 63)%N ->
  ((m < 0 \/ 2 ^ 31 <= m)%Z -> wt_make_signed l = UB) /\
  ((0 <= m < 2 ^ 31)%Z -> let low := low_bits (bits_needed (Z.to_N m)) in exists t, wt_make_signed l = Ok t /\ wt_size t = Ok (length l) /\
    (forall i, i < length l -> wt_get t i = Ok (low (nth i l 0%Z) mod 256)%N) /\
    (forall i, i < length l -> let n := count_if (fun x => (low x =? low (nth i l 0%Z))%N) (firstn i l) in wt_rank t i = Ok n /\ wt_access_and_rank t i = Ok ((low (nth i l 0%Z) mod 256)%N, n)) /\
    (forall c i, i < length l -> (c < 256)%N -> c = low (nth i l 0%Z) -> wt_rank_c t c i = Ok (count_if (fun x => (low x =? c)%N) (firstn i l)))).
Proof.
  intros l m F G HL. pose proof (proj1 (Forall_forall _ _) F m (proj1 G)) as Sm. unfold signed_value in Sm. split.
  - intros Hm. rewrite (wt_signed_unfold l m G). destruct Hm as [Hm|Hm]; [rewrite SizeFitsInBits_UB; [reflexivity|apply to_word_neg; lia]|].
    destruct (to_word_pos m ltac:(lia)) as (E & L). rewrite SizeFitsInBits_ok, E by auto. cbn [bind]. rewrite (proj2 (Nat.leb_le 32 _)); auto.
    destruct (Nat.le_gt_cases 32 (bits_needed (Z.to_N m))) as [P|P]; auto. exfalso. destruct (bits_needed_spec (Z.to_N m)) as (_ & B & _).
    assert (C : (Z.to_N m < 2 ^ 31)%N) by (eapply N.lt_le_trans; [exact B|]; change (2 ^ 31)%N with (2 ^ N.of_nat 31)%N; apply N.pow_le_mono_r; lia).
    apply N2Z.inj_lt in C. rewrite Z2N.id in C by lia. change (Z.of_N (2 ^ 31)) with (2 ^ 31)%Z in C. lia.
  - intros Hm low. destruct (wt_signed_same l m G Hm) as (Nl & Fl & Ml & t & t' & E & E' & A & B). fold low in Nl, Fl, Ml, E'. destruct (query_same t t' A B) as (Q1 & Q2 & Q3 & Q4 & Q5).
    assert (HL' : (N.of_nat (length (map low l)) < 2 ^ 63)%N) by now rewrite map_length.
    exists t. split; auto. split; [|split; [|split]].
    + rewrite Q5. destruct (wt_size_ok _ Nl Fl) as (t2 & E2 & S2). replace t2 with t' in S2 by congruence. now rewrite map_length in S2.
    + intros i Hi. rewrite Q1. destruct (wt_reads _ Nl Fl HL') as (t2 & E2 & R1 & _). replace t2 with t' in * by congruence. rewrite R1 by now rewrite map_length. unfold low. now rewrite nth_map_low.
    + intros i Hi n. rewrite Q2, Q3. destruct (wt_reads _ Nl Fl HL') as (t2 & E2 & _ & R2 & R3). replace t2 with t' in * by congruence. rewrite R2, R3 by now rewrite map_length. unfold low. rewrite nth_map_low, !firstn_map, !count_map. auto.
    + intros c i Hi Hc Ec. rewrite Q4. destruct (wt_rank_c_member (map low l) c i) as (t2 & E2 & R); auto; [now rewrite map_length|unfold low; rewrite nth_map_low; auto|]. replace t2 with t' in * by congruence. rewrite R. now rewrite firstn_map, count_map.
Qed.

Theorem wt_signed_symbol : forall l m c i, Forall signed_value l -> greatest m l -> (0 <= m < 2 ^ 31)%Z -> (N.of_nat (length l) < 2 ^ 63)%N -> i <= length l -> (c < 256)%N ->
  let h := bits_needed (Z.to_N m) in let low := map (low_bits h) in let c' := (c mod 2 ^ N.of_nat h)%N in
  exists t, wt_make_signed l = Ok t /\
  ((exists k, 1 <= k <= h /\ sharing k c' (low (firstn i l)) = sharing k c' (low l) /\ sharing k c' (low l) mod 64 = 0 /\ sharing k c' (low l) <> 0) -> wt_rank_c t c i = UB) /\
  (~ (exists k, 1 <= k <= h /\ sharing k c' (low (firstn i l)) = sharing k c' (low l) /\ sharing k c' (low l) mod 64 = 0 /\ sharing k c' (low l) <> 0) ->
   wt_rank_c t c i = Ok (count_if (fun x => (low_bits h x =? c')%N) (firstn i l))).
Proof.
  intros l m c i F G Hm HL Hi Hc h low c'. destruct (wt_signed_same l m G Hm) as (Nl & Fl & Ml & t & t' & E & E' & A & B). fold h low in Nl, Fl, Ml, E'. destruct (query_same t t' A B) as (_ & _ & _ & Q4 & _).
  destruct (wt_rank_c_exact (low l) c i Nl Fl) as (t2 & E2 & R); [unfold low; now rewrite map_length|unfold low; now rewrite map_length|auto|]. rewrite Ml in R. fold c' in R. cbv zeta in R. replace t2 with t' in R by congruence.
  exists t. split; auto. rewrite Q4. unfold low in *. rewrite firstn_map, count_map in R. exact R.
Qed.

(** ** DacVector and CDRWArray *)
Theorem dac_signed : forall l units x, units <> [] -> Forall signed_value l -> In x l -> (x < 0)%Z -> dac_of_signed l units = UB.
Proof.
  intros l units x Hu F I X. unfold dac_of_signed. pose proof (proj1 (Forall_forall _ _) F x I) as Sx. unfold signed_value in Sx.
  assert (Hl : map to_word l <> []) by (destruct l; [destruct I|discriminate]). apply (proj1 (dac_every units _ Hl Hu)).
  destruct (forallb (fun v => (v <? 2 ^ 63)%N) (map to_word l)) eqn:E; auto. exfalso. rewrite forallb_forall in E. specialize (E _ (in_map to_word _ _ I)). apply N.ltb_lt in E. pose proof (to_word_neg x ltac:(lia)). lia.
Qed.

Theorem cdrw_range_top : forall l, (N.of_nat (length l) < 2 ^ 49)%N -> Forall (fun x => (x < 2 ^ 64)%N) l -> Exists (fun x => (2 ^ 63 <= x)%N) l -> cdrw_of_list l = UB.
Proof.
  intros l HL F X. assert (P : exists pre v post, l = pre ++ v :: post /\ Forall (fun x => (x < 2 ^ 63)%N) pre /\ (2 ^ 63 <= v < 2 ^ 64)%N).
  { clear HL. induction l as [|x l IH]; [inversion X|]. inversion F; subst. destruct (N.lt_ge_cases x (2 ^ 63)) as [L|L]; [|exists [], x, l; auto].
    destruct IH as (pre & v & post & -> & A & B); auto; [inversion X; subst; auto; lia|]. exists (x :: pre), v, post. auto. }
  destruct P as (pre & v & post & -> & Fp & Hv). set (n := length (pre ++ v :: post)) in *.
  assert (En : n = length pre + S (length post)) by (unfold n; now rewrite app_length).
  assert (H1 : 1 <= n) by lia. change (2 ^ 49)%N with 562949953421312%N in HL. assert (H50 : (N.of_nat n <= 2 ^ 50)%N) by (change (2 ^ 50)%N with 1125899906842624%N; lia).
  assert (Ec : forall (a : list nat) (b : list N) a' b', length a = length b -> combine (a ++ a') (b ++ b') = combine a b ++ combine a' b').
  { clear. induction a as [|u a IH]; intros [|w b] a' b' E; simpl in *; try discriminate; auto. f_equal. apply IH. lia. }
  assert (Sq : seq 0 n = seq 0 (length pre) ++ length pre :: seq (S (length pre)) (length post)) by (rewrite En, seq_app; reflexivity).
  set (W := combine (seq 0 (length pre)) pre).
  assert (LW : length W = length pre) by (unfold W; rewrite combine_length, seq_length; lia).
  destruct (make_cinv n H1 H50) as (a0 & E0 & I0).
  assert (FW : Forall (fun w => fst w < n /\ (snd w < 2 ^ 63)%N) W).
  { apply Forall_forall. intros (i & y) Hin. cbn [fst snd]. pose proof (in_combine_l _ _ _ _ Hin) as A. pose proof (in_combine_r _ _ _ _ Hin) as B. apply in_seq in A. rewrite Forall_forall in Fp. split; [lia|auto]. }
  unfold cdrw_of_list. fold n. rewrite E0. cbn [bind]. rewrite Sq, Ec by now rewrite seq_length. cbn [combine]. fold W. rewrite foldM_app.
  destruct (CDRWAll.writes_inv n H1 H50 a0 I0 W FW) as [(p1 & j & x & p2 & a & Ep & E & St & Fu)|(a & E & I)]; [change (2 ^ 49)%N with 562949953421312%N; lia| |].
  - exfalso. destruct (range_correct (pre ++ 0%N :: repeat 0%N (length post))) as (a' & Ea & _).
    + rewrite app_length. cbn [length]. rewrite repeat_length. change (2 ^ 50)%N with 1125899906842624%N. lia.
    + apply Forall_app. split; auto. constructor; [reflexivity|]. apply Forall_forall. intros y Hy. apply repeat_spec in Hy. subst. reflexivity.
    + unfold cdrw_of_list in Ea. replace (length (pre ++ 0%N :: repeat 0%N (length post))) with n in Ea by (rewrite app_length; cbn [length]; rewrite repeat_length; lia). rewrite E0 in Ea. cbn [bind] in Ea. rewrite Sq, Ec in Ea by now rewrite seq_length. fold W in Ea. rewrite foldM_app, Fu in Ea. discriminate.
  - rewrite E. cbn [bind foldM fst snd]. rewrite (CDRWAll.set_top n H1 H50 a _ _ _ (length pre) v I); [reflexivity|lia|apply Hv|apply Hv|change (2 ^ 50 - 1)%N with 1125899906842623%N; lia].
Qed.
Theorem cdrw_signed : forall l x, (N.of_nat (length l) < 2 ^ 49)%N -> Forall signed_value l -> In x l -> (x < 0)%Z -> cdrw_of_signed l = UB.
Proof.
  intros l x HL F I X. apply cdrw_range_top; [now rewrite map_length|apply Forall_forall; intros y Hy; apply in_map_iff in Hy; destruct Hy as (z & <- & _); apply to_word_lt|].
  apply Exists_exists. exists (to_word x). split; [now apply in_map|]. apply to_word_neg. pose proof (proj1 (Forall_forall _ _) F x I) as Sx. unfold signed_value in Sx. lia.
Qed.
