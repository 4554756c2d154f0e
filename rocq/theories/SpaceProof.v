(** The space of the other containers. *)
From Coq Require Import List NArith ZArith Arith Bool Lia.
From Verif Require Import Base Spec Spec4 BitUtilModel CalcModel CalcProof BitVectorModel BitVectorProof BitVectorProof2 FitVectorModel FitVectorProof Spec7 FitVectorProof2 SuccinctModel SuccinctProof SuccinctProof2 SuccinctProof3
  WaveletModel WaveletProof HashModel CHTModel CHTWord CHTProof CHTMain CHTRun Spec31 DacSpaceModel DacSpace Spec32 SpaceModel.
Import ListNotations.
Ltac Zify.zify_post_hook ::= idtac.
Local Open Scope nat_scope.

(** ** bit vectors *)
Lemma gws_bits : forall n, N.of_nat (get_word_size n) = bits_words (N.of_nat n).
Proof.
  intros n. unfold bits_words. destruct (Nat.eq_dec n 0) as [->|]; [reflexivity|]. rewrite gws_words by lia.
  rewrite N.max_r; auto. unfold words_for. apply N.div_le_lower_bound; lia.
Qed.
Lemma bv_space : forall v l, bv_reach v l -> N.of_nat (length (bv_words v)) = bits_words (N.of_nat (length l)).
Proof. intros v l R. apply bv_reach_rep in R. destruct R as (_ & E & _). rewrite E. apply gws_bits. Qed.
Lemma path_indexed : forall p b, sbv_ok p b -> sb_tips p = [] -> N.of_nat (path_words p) = indexed_words (N.of_nat (length b)).
Proof.
  intros p b ((_ & Lw & _) & Lb & _) T. unfold path_words, indexed_words. rewrite Lw, Lb, T. cbn [length]. rewrite <- gws_bits.
  rewrite Nat.add_0_r, Nat2N.inj_add, Nat2N.inj_mul, Nat2N.inj_add, Nat2N.inj_div. change (N.of_nat 512) with 512%N. change (N.of_nat 2) with 2%N. change (N.of_nat 1) with 1%N. lia.
Qed.
Lemma indexed_bounds : forall n, (3 <= indexed_words n /\ 5 * n <= 256 * indexed_words n /\ 256 * indexed_words n <= 5 * n + 768)%N.
Proof.
  intros n. unfold indexed_words, bits_words, words_for.
  pose proof (N.div_mod (n + 63) 64 ltac:(lia)). pose proof (N.mod_lt (n + 63) 64 ltac:(lia)). pose proof (N.div_mod n 512 ltac:(lia)). pose proof (N.mod_lt n 512 ltac:(lia)). lia.
Qed.

(** ** the wavelet tree *)
Definition total (nodes : list bitvec) : nat := list_sum (map bv_size nodes).
Lemma total_upd : forall nodes i n, i < length nodes -> total (upd nodes i n) + bv_size (nth i nodes bv_default) = total nodes + bv_size n.
Proof.
  unfold total. induction nodes as [|a s IH]; intros [|i] n H; cbn [length] in H; try lia; cbn [upd map list_sum fold_right nth].
  - unfold list_sum. cbn [fold_right]. lia.
  - specialize (IH i n ltac:(lia)). unfold list_sum in *. cbn [fold_right]. lia.
Qed.
Lemma push_size : forall v b v', bv_push_back v b = Ok v' -> bv_size v' = S (bv_size v).
Proof.
  intros v b v' E. unfold bv_push_back, bv_resize in E. destruct (Nat.ltb_spec (bv_size v + 1) (bv_size v)); [lia|]. destruct (Nat.ltb_spec (bv_size v) (bv_size v + 1)); [|lia].
  apply bind_Ok_inv in E. destruct E as (ws & _ & E). injection E as <-. cbn [bv_size]. lia.
Qed.
Lemma insert_total : forall k nodes id v nodes', wt_insert k nodes id v = Ok nodes' -> total nodes' = total nodes + k.
Proof.
  induction k as [|k IH]; intros nodes id v nodes' E; cbn [wt_insert] in E; [injection E as <-; lia|]. cbv zeta in E.
  apply bind_Ok_inv in E. destruct E as (n & En & E). apply bind_Ok_inv in E. destruct E as (n' & En' & E). apply bind_Ok_inv in E. destruct E as (ns & Es & E).
  apply IH in E. apply lset_inv in Es. destruct Es as (Hi & ->). rewrite (lget_nth _ _ _ bv_default) in En by auto. injection En as <-. apply push_size in En'.
  pose proof (total_upd nodes (id - 1) n' Hi). lia.
Qed.
Lemma insert_all_total : forall h l nodes nodes', foldM (fun nodes v => wt_insert h nodes 1 v) l nodes = Ok nodes' -> total nodes' = total nodes + length l * h.
Proof.
  intros h. induction l as [|x l IH]; intros nodes nodes' E; cbn [foldM] in E; [injection E as <-; cbn [length]; lia|].
  apply bind_Ok_inv in E. destruct E as (n1 & E1 & E). apply insert_total in E1. apply IH in E. cbn [length]. nia.
Qed.
Lemma total_default : forall n, total (repeat bv_default n) = 0.
Proof. intros n. unfold total. induction n; cbn [repeat map]; auto. Qed.
Lemma build_total_words : forall src nodes, mapM (sb_build false) src = Ok nodes -> (forall n, In n src -> exists l, bv_rep n l) ->
  length nodes = length src /\ 3 * length src <= list_sum (map path_words nodes) /\ 5 * total src <= 256 * list_sum (map path_words nodes) /\
  256 * list_sum (map path_words nodes) <= 5 * total src + 768 * length src.
Proof.
  induction src as [|a s IH]; intros nodes E H; pose proof (mapM_tips _ _ E) as T; cbn [mapM] in E.
  - injection E as <-. cbn. lia.
  - apply bind_Ok_inv in E. destruct E as (q & Eq & E). apply bind_Ok_inv in E. destruct E as (qs & Es & E). injection E as <-.
    destruct (IH qs Es) as (L & A & B & C); [intros; apply H; now right|]. destruct (H a (or_introl eq_refl)) as (la & Ra).
    destruct (sb_build_total a la false Ra) as (q' & Eq' & _ & O). assert (q' = q) by congruence. subst q'. inversion T as [|? ? Tq _]; subst.
    pose proof (path_indexed q la O Tq) as P. pose proof (indexed_bounds (N.of_nat (length la))) as D. destruct Ra as (Sa & _).
    unfold total, list_sum in *. cbn [map fold_right length]. rewrite Sa. lia.
Qed.
Theorem wt_space : forall l, l <> [] -> Forall (fun x => (x < 2 ^ 31)%N) l ->
  exists t, wt_make l = Ok t /\ let h := bits_needed (max_element l) in wt_height t = h /\ length (wt_nodes t) = 2 ^ h - 1 /\
    list_sum (map sb_size (wt_nodes t)) = length l * h /\
    3 * (2 ^ h - 1) <= wt_words t /\ 5 * (length l * h) <= 256 * wt_words t /\ 256 * wt_words t <= 5 * (length l * h) + 768 * (2 ^ h - 1).
Proof.
  intros l Hl F.
  assert (Hm : (max_element l < 2 ^ 31)%N) by (apply max_element_bound; auto; vm_compute; reflexivity).
  assert (Hm63 : (max_element l < 2 ^ 63)%N) by (apply N.lt_trans with (2 ^ 31)%N; [auto|vm_compute; reflexivity]).
  destruct (bits_needed_spec (max_element l)) as (B1 & B2 & _). pose proof (bits_needed_le _ 31 Hm ltac:(lia)) as B3.
  unfold wt_make. destruct l as [|a l'] eqn:El; [congruence|]. rewrite <- El in *.
  rewrite SizeFitsInBits_ok by auto. cbn [bind]. cbv zeta. set (h := bits_needed (max_element l)) in *.
  destruct (Nat.leb_spec 32 h); [lia|].
  assert (Fh : Forall (fun x => (x < 2 ^ N.of_nat h)%N) l).
  { apply Forall_forall. intros x Hx. apply N.le_lt_trans with (max_element l); auto. now apply max_element_le. }
  destruct (insert_all h l (repeat bv_default (2 ^ h - 1)) [] Fh) as (src & E & W).
  { split; [apply repeat_length|]. intros. rewrite nth_repeat. apply bv_default_rep. }
  rewrite E. cbn [bind]. destruct W as (L & W). simpl app in W. pose proof (insert_all_total _ _ _ _ E) as Tt. rewrite total_default in Tt.
  assert (Hs : forall n, In n src -> exists b, bv_rep n b).
  { intros n Hn. apply In_nth with (d := bv_default) in Hn. destruct Hn as (i & Hi & <-).
    destruct (nid_onto h i) as (k & p & Hk & Hp & Ei); [lia|]. rewrite <- Ei. eauto. }
  destruct (mapM_build src Hs) as (nodes & En & Ln & G). rewrite En. cbn [bind]. eexists. split; [reflexivity|]. cbn [wt_height wt_nodes]. unfold wt_words. cbn [wt_nodes].
  destruct (build_total_words src nodes En Hs) as (L1 & W1 & W2 & W3). rewrite L, Tt in *. split; auto. split; [lia|]. split; [|repeat split; lia].
  assert (Q : forall src nodes, mapM (sb_build false) src = Ok nodes -> (forall n, In n src -> exists b, bv_rep n b) -> map sb_size nodes = map bv_size src).
  { clear. induction src as [|a s IH]; intros nodes E H; cbn [mapM] in E; [injection E as <-; auto|]. apply bind_Ok_inv in E. destruct E as (q & Eq & E). apply bind_Ok_inv in E. destruct E as (qs & Es & E). injection E as <-.
    destruct (H a (or_introl eq_refl)) as (la & Ra). destruct (sb_build_total a la false Ra) as (q' & Eq' & Bq & _). assert (q' = q) by congruence. subst q'.
    cbn [map]. rewrite (IH qs Es); [|intros; apply H; now right]. unfold sb_size. now rewrite Bq. }
  rewrite (Q _ _ En Hs). fold (total src). lia.
Qed.

(** ** the compact hash table *)
Lemma rep_words : forall kb VW L t P, 1 <= VW -> rep kb VW L t P -> exists b, ch_bucket t = 2 ^ b /\ b <= 60 /\ 100 * ch_size t <= 2 ^ b * L /\ N.of_nat (cht_words t) = table_words kb VW b.
Proof.
  intros kb VW L t P HV (l & vs & H & G & _). destruct G as [Gb Gn Gs Gm Gl]. exists (ch_bucket_bits t). destruct Gb as [Ga Gk Gbb G60 Gq Gmx _ _ _ _ Gu].
  split; auto. split; auto. split.
  - rewrite Gs. rewrite Gmx in Gl. rewrite <- Gbb. pose proof (Nat.mul_div_le (ch_bucket t * L) 100 ltac:(lia)). lia.
  - destruct Ga as [HB Hq Ll Lv (_ & _ & La & _) Aw (_ & _ & Lb & _) Vw]. unfold cht_words, table_words. rewrite La, Lb, Aw, Vw, Ll, Lv, Gq, Nat2N.inj_add, !fws_words by lia.
    rewrite Gbb, Nat2N.inj_pow. reflexivity.
Qed.
Section Grow.
Variables (kb VB VW L : nat).
Hypothesis Hkb : kb <= 63.
Hypothesis HL : 1 <= L <= 100.
Hypothesis HVW : 1 <= VW <= 63.
Hypothesis HVB : VB = 0 \/ VB = VW.
Notation rep := (rep kb VW L).

(** what reserve(n) asks for is at most twice n * 99 / L *)
Definition most (n : nat) : nat := Nat.max 1 (2 * (n * 99 / L)).
Lemma most_mono : forall a b, a <= b -> most a <= most b.
Proof. intros a b H. unfold most. assert (a * 99 / L <= b * 99 / L) by (apply Nat.div_le_mono; lia). lia. Qed.
Lemma bucket_most : forall n bb, 1 <= n ->
  (do b <- shl64 1 (wsub 64 (clz64 (wsub (wrap64 (wrap64 (N.of_nat n * 99) / N.of_nat L + 1)) 1))); Ok (N.to_nat b)) = Ok (2 ^ bb) ->
  (1 <= n * 99 / L -> 1 <= bb /\ 2 ^ (bb - 1) <= n * 99 / L) -> 2 ^ bb <= most n.
Proof.
  intros n bb Hn E H1. unfold most. destruct (Nat.eq_dec (n * 99 / L) 0) as [E0|].
  - apply Nat.div_small_iff in E0; [|lia]. assert (n = 1) by lia. assert (L = 100) by lia. subst n. rewrite H0 in E.
    assert (N : 2 ^ bb = 1) by (vm_compute (bind _ _) in E; congruence). rewrite N. lia.
  - destruct H1 as (H1 & H2); [lia|]. replace bb with (S (bb - 1)) by lia. rewrite Nat.pow_succ_r'. lia.
Qed.

Lemma set_room_b : forall fuel t P k v, rep t P -> (k < 2 ^ N.of_nat kb)%N -> (v < 2 ^ N.of_nat VW)%N -> ch_used t < ch_max t ->
  exists t', cht_set_fuel VB L (S fuel) t k v = Ok t' /\ rep t' (upP P k v) /\ ch_max t' = ch_max t /\ ch_bucket t' = ch_bucket t /\
    (((exists v0, P k v0) /\ ch_size t' = ch_size t) \/ ((forall v0, ~ P k v0) /\ ch_size t' = S (ch_size t))).
Proof.
  intros fuel t P k v (l & vs & H & G & E) Hk Hv Hu. cbn [cht_set_fuel]. unfold cht_is_filled. rewrite (proj2 (Nat.eqb_neq _ _)) by lia. cbn [bind].
  destruct (CHTMain.insert_ok kb VW L Hkb HL t l vs H G k v Hk Hv Hu) as (t' & l' & vs' & H' & E' & G' & B' & P' & S'). exists t'. split; auto. split; [|split; [|split; auto]].
  - exists l', vs', H'. split; auto. intros k' v' Hk'. rewrite P' by auto. unfold upP. destruct (k' =? k)%N; [tauto|]. now apply E.
  - now rewrite (g_max _ _ _ _ _ _ _ G), (g_max _ _ _ _ _ _ _ G'), B'.
  - destruct S' as [((v0 & S1) & S2)|(S1 & S2)]; [left|right]; split; auto; [exists v0; now apply E|intros v0 Pv; apply (S1 v0); now apply E].
Qed.
Lemma set_any_b : forall X fuel t P k v, rep t P -> (k < 2 ^ N.of_nat kb)%N -> (v < 2 ^ N.of_nat VW)%N -> (N.of_nat (ch_size t) < 2 ^ 51)%N -> ch_bucket t <= Nat.max X (most (2 * ch_size t)) ->
  exists t', cht_set_fuel VB L (S (S fuel)) t k v = Ok t' /\ rep t' (upP P k v) /\ ch_bucket t' <= Nat.max X (most (2 * ch_size t')) /\
    (((exists v0, P k v0) /\ ch_size t' = ch_size t) \/ ((forall v0, ~ P k v0) /\ ch_size t' = S (ch_size t))).
Proof.
  intros X fuel t P k v Rt Hk Hv Hs Hb0. destruct (rep_facts kb VB VW L Hkb HL HVW HVB t P Rt) as (b & Hb & Bt & Mt & M1 & Su & Le & _ & _ & Wb).
  assert (Up : forall t', ch_bucket t' <= Nat.max X (most (2 * ch_size t)) -> ch_size t <= ch_size t' -> ch_bucket t' <= Nat.max X (most (2 * ch_size t'))).
  { intros t' H1 H2. pose proof (most_mono (2 * ch_size t) (2 * ch_size t') ltac:(lia)). lia. }
  destruct (Nat.eq_dec (ch_used t) (ch_max t)) as [Fi|].
  2:{ destruct (set_room_b (S fuel) t P k v Rt Hk Hv ltac:(lia)) as (t' & E' & R' & _ & B' & S'). exists t'. split; auto. split; auto. split; auto. apply Up; [lia|]. destruct S' as [(_ & S')|(_ & S')]; lia. }
  set (f1 := S fuel). cbn [cht_set_fuel]. unfold cht_is_filled. rewrite (proj2 (Nat.eqb_eq _ _)) by auto. unfold cht_reserve_with. change (2 ^ 51)%N with 2251799813685248%N in Hs.
  rewrite size_twice_small by (change (2 ^ 63)%N with 9223372036854775808%N; lia). rewrite (proj2 (Nat.leb_gt _ _)) by lia.
  destruct (reserve_bucket kb VB VW L Hkb HL HVW HVB (ch_size t * 2)) as (bb & Eb & Hbb & Hlt & Hlo); [lia|change (2 ^ 52)%N with 4503599627370496%N; lia|].
  pose proof (bucket_most (ch_size t * 2) bb ltac:(lia) Eb Hlo) as Mo.
  apply bind_Ok_inv in Eb. destruct Eb as (bn & Eb & En). injection En as En. cbv zeta. rewrite Eb. cbn [bind]. rewrite En.
  assert (Dm : b < bb /\ ch_max t < 2 ^ bb * L / 100).
  { rewrite Mt. apply (double_bucket kb VB VW L Hkb HL HVW HVB); [rewrite <- Mt; auto|]. rewrite Su, Fi, Mt in Hlt. now rewrite (Nat.mul_comm 2). }
  destruct (resize_ok kb VB VW L Hkb HL HVW HVB (cht_set_fuel VB L f1) (fun nt => ch_max t < ch_max nt /\ ch_bucket nt = 2 ^ bb) t P bb Rt Hbb ltac:(lia) ltac:(lia)) as (t1 & E1 & R1 & (G1 & G1') & S1).
  - intros nt Bn _ ->. split; [apply Dm|auto].
  - intros nt P' k' v' Rn (Gn & Gn') Hk' Hv' Fr Lt. destruct (rep_facts kb VB VW L Hkb HL HVW HVB _ _ Rn) as (_ & _ & _ & _ & _ & Sun & _ & _).
    destruct (set_room_b fuel nt P' k' v' Rn Hk' Hv' ltac:(lia)) as (nt' & E' & R' & M' & B' & [((v0 & C) & _)|(_ & S')]); [exfalso; eapply Fr; eauto|]. exists nt'. split; auto. split; auto. split; auto. split; lia.
  - rewrite E1. cbn [bind]. destruct (rep_facts kb VB VW L Hkb HL HVW HVB _ _ R1) as (_ & _ & _ & _ & _ & Su1 & _ & _).
    destruct (set_room_b 0 t1 P k v R1 Hk Hv ltac:(lia)) as (t' & E' & R' & _ & B' & S'). cbn [cht_set_fuel] in E'. unfold cht_is_filled in E'. rewrite (proj2 (Nat.eqb_neq _ _)) in E' by lia. cbn [bind] in E'.
    exists t'. split; auto. split; auto. rewrite S1 in S'. split; auto. apply Up; [|destruct S' as [(_ & S')|(_ & S')]; lia]. rewrite B', G1', (Nat.mul_comm 2). lia.
Qed.
Lemma reserve_any_b : forall X t P n, rep t P -> (N.of_nat (ch_size t) < 2 ^ 51)%N -> (N.of_nat n < 2 ^ 52)%N -> n <= ch_size t \/ room kb L n -> ch_bucket t <= Nat.max X (most (2 * ch_size t)) -> most n <= X ->
  exists t', cht_reserve VB L t n = Ok t' /\ rep t' P /\ ch_bucket t' <= Nat.max X (most (2 * ch_size t')) /\ ch_size t' = ch_size t.
Proof.
  intros X t P n Rt Hs Hn Hr Hb0 HX. unfold cht_reserve, cht_reserve_with. destruct (Nat.leb_spec n (ch_size t)); [exists t; auto|]. destruct Hr as [Hr|Hr]; [lia|].
  destruct (reserve_bucket kb VB VW L Hkb HL HVW HVB n) as (bb & Eb & Hbb & Hlt & Hlo); [lia|auto|]. pose proof (bucket_most n bb ltac:(lia) Eb Hlo) as Mo.
  apply bind_Ok_inv in Eb. destruct Eb as (bn & Eb & En). injection En as En. cbv zeta. rewrite Eb. cbn [bind]. rewrite En.
  destruct (resize_ok kb VB VW L Hkb HL HVW HVB (cht_set VB L) (fun nt => ch_bucket nt <= Nat.max X (most (2 * ch_size nt))) t P bb Rt Hbb (room_bb kb L HL n bb Hr ltac:(lia) Hlt) (reserve_max kb VB VW L Hkb HL HVW HVB n bb ltac:(lia) Hlt)) as (t1 & E1 & R1 & B1 & S1); auto.
  - intros nt -> _ _. lia.
  - intros nt P' k' v' Rn Bn Hk' Hv' Fr Lt. destruct (set_any_b X 2 nt P' k' v' Rn Hk' Hv' ltac:(lia) Bn) as (nt' & E' & R' & B' & [((v0 & C) & _)|(_ & S')]); [exfalso; eapply Fr; eauto|]. exists nt'. auto.
  - exists t1. auto.
Qed.
Lemma asked_app : forall ops o, asked (ops ++ [o]) = Nat.max (asked ops) (match o with MapSet _ _ => 0 | MapReserve n => n end).
Proof. intros ops o. unfold asked. rewrite map_app, fold_right_app. cbn [map fold_right]. induction ops as [|a ops IH]; cbn [map fold_right]; [lia|]. rewrite IH. lia. Qed.
Lemma run_b : forall bb ops, bb <= 60 -> kb <= 59 + bb -> 1 <= 2 ^ bb * L / 100 -> (N.of_nat (length ops) < 2 ^ 50)%N -> Forall (map_op_in kb VW) ops -> Forall (rooms kb L) ops ->
  exists t, cht_run VB L kb (2 ^ bb) VW ops = Ok t /\ rep t (mapP ops) /\ ch_bucket t <= Nat.max (Nat.max (2 ^ bb) (most (asked ops))) (most (2 * ch_size t)) /\ ch_size t = distinct_keys ops /\ ch_size t <= length ops.
Proof.
  intros bb ops Hbb Hwid Hmax. unfold cht_run. destruct (start_rep kb VB VW L Hkb HL HVW HVB bb Hbb Hwid Hmax) as (t0 & E0 & R0 & S0 & B0). rewrite E0. cbn [bind]. clear E0.
  induction ops as [|o ops IH] using rev_ind; intros Hn Ho Hr.
  - exists t0. split; auto. split; [|split; [rewrite B0; lia|split; auto; rewrite S0; auto]]. apply CHTMain.rep_ext with (1 := R0). intros k v _. unfold mapP. simpl. split; [discriminate|tauto].
  - rewrite app_length in Hn. simpl in Hn. rewrite Forall_app in Ho, Hr. destruct Ho as (Ho & Ho1). destruct Hr as (Hr & Hr1). inversion Ho1; subst. apply Forall_inv in Hr1. destruct IH as (t & E & R & Bt & S & Le); [lia|auto|auto|].
    rewrite foldM_app, E. cbn [bind foldM]. change (2 ^ 50)%N with 1125899906842624%N in *. rewrite asked_app.
    destruct o as [k v|n]; simpl in H1; cbn [cht_step].
    + destruct H1 as (Hk & Hv). destruct (set_any_b (Nat.max (2 ^ bb) (most (asked ops))) 2 t (mapP ops) k v R Hk Hv) as (t' & E' & R' & B' & S'); [change (2 ^ 51)%N with 2251799813685248%N; lia|auto|].
      unfold cht_set. rewrite E'. cbn [bind]. exists t'. split; auto. split; [|split; [rewrite Nat.max_0_r; auto|]].
      * apply CHTMain.rep_ext with (1 := R'). intros k' v' _. unfold mapP. rewrite last_set_app. unfold upP. destruct (N.eqb_spec k' k) as [->|]; [|tauto]. split; [congruence|intros ->; auto].
      * unfold distinct_keys. rewrite keys_app. simpl map_keys. rewrite (nodup_snoc kb VB VW L Hkb HL HVW HVB). fold (distinct_keys ops). rewrite <- S. rewrite app_length. simpl length.
        pose proof (last_set_in VB VW L HL HVW HVB k ops) as LI. destruct (in_dec N.eq_dec k (map_keys ops)) as [I|I].
        -- destruct S' as [(_ & ->)|(No & _)]; [lia|]. exfalso. apply LI in I. destruct I as (w & Ew). apply (No w Ew).
        -- destruct S' as [((w & Ew) & _)|(_ & ->)]; [|lia]. exfalso. apply I, LI. exists w. exact Ew.
    + destruct (reserve_any_b (Nat.max (2 ^ bb) (most (Nat.max (asked ops) n))) t (mapP ops) n R) as (t' & E' & R' & B' & S');
        [change (2 ^ 51)%N with 2251799813685248%N; lia|change (2 ^ 52)%N with 4503599627370496%N; lia|destruct Hr1 as [->|]; [left; lia|auto]| | |].
      * pose proof (most_mono (asked ops) (Nat.max (asked ops) n) ltac:(lia)). lia.
      * pose proof (most_mono n (Nat.max (asked ops) n) ltac:(lia)). lia.
      * rewrite E'. cbn [bind]. exists t'. split; auto. split; [|split; auto].
        -- apply CHTMain.rep_ext with (1 := R'). intros k' v' _. unfold mapP. now rewrite last_set_app.
        -- unfold distinct_keys. rewrite keys_app. simpl map_keys. rewrite app_nil_r. fold (distinct_keys ops). rewrite app_length. lia.
Qed.
End Grow.

(** never smaller than the load allows, and grown no further than the first bucket count, what was asked for, or twice over what the entries need *)
Theorem cht_space : forall kb VB VW L bb ops, kb <= 60 -> 1 <= L <= 99 -> 1 <= VW <= 63 -> VB = 0 \/ VB = VW ->
  1 <= bb <= 60 -> 1 <= 2 ^ bb * L / 100 -> (N.of_nat (length ops) < 2 ^ 50)%N -> Forall (map_op_in kb VW) ops ->
  exists t b, cht_run VB L kb (2 ^ bb) VW ops = Ok t /\ ch_bucket t = 2 ^ b /\ N.of_nat (cht_words t) = table_words kb VW b /\
    100 * distinct_keys ops <= 2 ^ b * L /\ (b <= bb \/ 2 ^ b * L <= 198 * asked ops \/ 2 ^ b * L <= 396 * distinct_keys ops).
Proof.
  intros kb VB VW L bb ops Hkb HL HVW HVB Hbb Hmax Hn Ho.
  destruct (run_b kb VB VW L ltac:(lia) ltac:(lia) HVW HVB bb ops ltac:(lia) ltac:(lia) Hmax Hn Ho (rooms_60 kb L ops Hkb ltac:(lia))) as (t & E & R & B & S & _).
  destruct (rep_words kb VW L t _ ltac:(lia) R) as (b & Eb & _ & Lo & W). exists t, b. split; auto. split; auto. split; auto. rewrite <- S. split; auto.
  rewrite Eb in B. assert (M : forall n, 2 ^ b <= most L n -> b <= bb \/ 2 ^ b * L <= 198 * n).
  { intros n H. unfold most in H. destruct (Nat.eq_dec b 0) as [->|]; [left; lia|]. right. assert (2 <= 2 ^ b) by (apply (Nat.pow_le_mono_r 2 1 b); lia).
    assert (H2 : 2 ^ b <= 2 * (n * 99 / L)) by lia. pose proof (Nat.mul_div_le (n * 99) L ltac:(lia)). nia. }
  apply Nat.max_le in B. destruct B as [B|B]; [apply Nat.max_le in B; destruct B as [B|B]|].
  - left. apply Nat.pow_le_mono_r_iff in B; lia.
  - destruct (M _ B); auto.
  - destruct (M _ B); auto. right. right. lia.
Qed.

(** ** the packed vector, whatever is written to it *)
Theorem fv_space : forall w ops n T, 1 <= w <= 63 -> Forall op_word ops -> tape_run w (0, fun _ => false) ops = Some (n, T) ->
  exists v, fv_run (fv_make w) ops = Ok v /\ fv_size v = n /\ N.of_nat (length (fv_words v)) = words_for (N.of_nat n * N.of_nat w).
Proof.
  intros w ops n T Hw F E. destruct (fv_run_tape w ops (fv_make w) 0 (fun _ => false) (n, T)) as (v & S & R); auto.
  - unfold fv_tape. cbn. split; auto. split; auto. split; auto. split; [constructor|]. intros q. unfold bitat. cbn [fv_words]. destruct (q / 64); apply N.bits_0.
  - exists v. split; auto. cbn [fst snd] in R. destruct R as (_ & En & L & _). split; auto. rewrite L. apply fws_words. lia.
Qed.
