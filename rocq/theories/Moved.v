(** Lemmas on moved-from containers. *)
From Coq Require Import List NArith ZArith Arith Bool Lia.
From Verif Require Import Base Spec BitUtilModel BitUtilProof CalcModel CalcProof CalcExact BitVectorModel BitVectorProof BitVectorProof2 SuccinctModel FitVectorModel FitVectorProof WaveletModel DacModel CHTModel HashModel SamcModel TrieModel MovedModel.
Import ListNotations.
Local Open Scope nat_scope.

Lemma bind_UB A B (m : res A) (f : A -> res B) : m = UB -> (do x <- m; f x) = UB.
Proof. intros ->. reflexivity. Qed.
Lemma lget_nil A i : @lget A [] i = UB.
Proof. now apply lget_UB; cbn; lia. Qed.
Lemma lresize_nil A n (d : A) : lresize [] n d = repeat d n.
Proof. unfold lresize. now rewrite firstn_nil, Nat.sub_0_r. Qed.
Lemma firstn_repeat A (x : A) n m : firstn n (repeat x m) = repeat x (Nat.min n m).
Proof. revert m. induction n as [|n IH]; intros [|m]; cbn; [reflexivity..|]. now rewrite IH. Qed.
Lemma lresize_zeros A n m (d : A) : lresize (repeat d m) n d = repeat d n.
Proof. unfold lresize. rewrite firstn_repeat, repeat_length, <- repeat_app. f_equal. lia. Qed.

Lemma make_ref_ok i : exists r, make_ref i = Ok r /\ (0 <= ref_seg r)%Z.
Proof. unfold make_ref, OffsetMask, shl64. rewrite (proj2 (N.ltb_lt _ 64)); [|pose proof (Nat.mod_upper_bound i 64); lia]. cbn [bind]. eexists. split; [reflexivity|]. cbn. lia. Qed.
Lemma wgetZ_nil z : wgetZ [] z = UB.
Proof. unfold wgetZ. destruct (z <? 0)%Z; [reflexivity|apply lget_nil]. Qed.
Lemma bv_moved_get v i : bv_get (bv_moved v) i = UB.
Proof. unfold bv_get. destruct (make_ref_ok i) as (r & -> & _). cbn [bind bv_words bv_moved]. unfold ref_get. now rewrite wgetZ_nil. Qed.
Lemma bv_moved_set v i b : bv_set (bv_moved v) i b = UB.
Proof. unfold bv_set. destruct (make_ref_ok i) as (r & -> & _). cbn [bind bv_words bv_moved]. unfold ref_set. now rewrite wgetZ_nil. Qed.
Lemma bv_moved_at v i : bv_at (bv_moved v) i = if i <? bv_size v then UB else Throw.
Proof. unfold bv_at. rewrite bv_moved_get. cbn [bv_size bv_moved]. destruct (Nat.leb_spec (bv_size v) i), (Nat.ltb_spec i (bv_size v)); auto; lia. Qed.
Lemma bv_moved_resize v n b : n <> bv_size v -> bv_resize (bv_moved v) n b = bv_resize (bv_sized (bv_size v)) n b.
Proof.
  intros H. unfold bv_resize. cbn [bv_size bv_words bv_moved bv_sized]. rewrite lresize_nil, lresize_zeros.
  destruct (Nat.ltb_spec n (bv_size v)), (Nat.ltb_spec (bv_size v) n); auto; lia.
Qed.
Lemma bv_moved_assign v n b : bv_assign (bv_moved v) n b = bv_filled n b.
Proof. unfold bv_assign, bv_filled. cbn [bv_words bv_moved]. now rewrite lresize_nil. Qed.
Lemma bv_moved_run v n b ops l : n <> bv_size v -> bits_run (repeat false (bv_size v)) (BVResize n b :: ops) = Some l ->
  exists v', bv_run (bv_moved v) (BVResize n b :: ops) = Ok v' /\ bv_size v' = length l /\ bv_to_list v' = Ok l.
Proof.
  intros H R. destruct (bv_history _ _ _ _ (StartSized (bv_size v)) R) as (v' & E & S & _ & T). cbn [bind] in E. exists v'. split; [|split; assumption].
  unfold bv_run in *. cbn [foldM bv_step] in *. rewrite bv_moved_resize; assumption.
Qed.
Lemma bv_moved_assigned v n b ops l : bits_run [] (BVAssign n b :: ops) = Some l ->
  exists v', bv_run (bv_moved v) (BVAssign n b :: ops) = Ok v' /\ bv_size v' = length l /\ bv_to_list v' = Ok l.
Proof.
  intros R. cbn [bits_run bits_step] in R. destruct (bv_history _ _ _ _ (StartFilled n b) R) as (v' & E & S & _ & T). exists v'. split; [|split; assumption].
  unfold bv_run in *. cbn [foldM bv_step]. rewrite bv_moved_assign. exact E.
Qed.

Lemma bits_read_nil seg off w : bits_read [] seg off w = UB.
Proof. unfold bits_read. rewrite lget_nil. unfold WidthMask, shl64. destruct (_ <? 64)%N; reflexivity. Qed.
Lemma fv_moved_get v i : fv_get (fv_moved v) i = UB.
Proof. apply bits_read_nil. Qed.
Lemma fv_moved_at v i : fv_at (fv_moved v) i = if i <? fv_size v then UB else Throw.
Proof. unfold fv_at. rewrite fv_moved_get. cbn [fv_size fv_moved]. destruct (Nat.leb_spec (fv_size v) i), (Nat.ltb_spec i (fv_size v)); auto; lia. Qed.
Lemma fv_moved_resize v n : fv_resize (fv_moved v) n = fv_sized (fv_width v) n.
Proof. reflexivity. Qed.

Lemma sb_rank_nil b t i : sb_rank (SBV b [] t) i = UB.
Proof. unfold sb_rank. cbn [sb_block]. now rewrite lget_nil. Qed.
Lemma sb_select_nil selw b i : sb_select selw (SBV b [] []) i = UB.
Proof. unfold sb_select. cbn [sb_block sb_tips length Nat.eqb negb bind]. unfold sb_num_blocks. cbn [sb_block length]. change (0 / 2) with 0. cbn [block_search Nat.ltb Nat.leb Nat.add bind]. now rewrite lget_nil. Qed.

Lemma wt_moved_get t i : wt_get (wt_moved t) i = UB.
Proof. unfold wt_get. cbn [wt_moved wt_height wt_nodes]. destruct (wt_height t) as [|[|k]]; cbn [wt_get_loop]; rewrite ?lget_nil; reflexivity. Qed.
Lemma wt_made_height l t : wt_make l = Ok t -> 1 <= wt_height t.
Proof.
  destruct l as [|x l]; [discriminate|]. unfold wt_make. intros E. apply bind_Ok_inv in E. destruct E as (h & Eh & E). rewrite bits_total in Eh. destruct (max_element (x :: l) <? 2 ^ 63)%N eqn:B; [|discriminate].
  destruct (SizeFitsInBits_least _ (proj1 (N.ltb_lt _ _) B)) as (k & Ek & Hk & _). rewrite bits_total, B in Ek. destruct (32 <=? h); [discriminate|]. apply bind_Ok_inv in E. destruct E as (src & _ & E). apply bind_Ok_inv in E. destruct E as (nodes & _ & E).
  assert (t = WT h (wrap64 (max_element (x :: l) + 1)) nodes) by congruence. subst t. cbn [wt_height]. assert (h = k) by congruence. lia.
Qed.
Lemma wt_moved_ranks l t c i : wt_make l = Ok t -> wt_rank (wt_moved t) i = UB /\ wt_rank_c (wt_moved t) c i = UB /\ wt_access_and_rank (wt_moved t) i = UB.
Proof.
  intros E. apply wt_made_height in E. unfold wt_rank, wt_rank_c, wt_access_and_rank. cbn [wt_moved wt_height wt_nodes]. destruct (wt_height t) as [|k]; [lia|]. cbn [wt_rank_loop wt_rank_c_loop wt_access_rank_loop]. rewrite lget_nil. auto.
Qed.
Lemma dac_moved_get d i : dac_get (dac_moved d) i = UB.
Proof. unfold dac_get. cbn [dac_moved dac_num dac_layers]. destruct (dac_num d); [|reflexivity]. now rewrite lget_nil. Qed.
Lemma dac_moved_size d : dac_size (dac_moved d) = UB.
Proof. unfold dac_size. cbn [dac_moved dac_layers]. now rewrite lget_nil. Qed.


Ltac binv E x E1 := apply bind_Ok_inv in E; destruct E as (x & E1 & E).
Lemma cht_moved_arr t i w : fv_get (ch_arr (cht_moved t)) i <> Ok w.
Proof. cbn [cht_moved ch_arr]. rewrite fv_moved_get. discriminate. Qed.
Lemma cht_moved_get t k x : cht_get (cht_moved t) k <> Ok x.
Proof. unfold cht_get. intros E. binv E q E1. destruct q as [quo i]. binv E w E2. exact (cht_moved_arr _ _ _ E2). Qed.
Lemma cht_moved_insert t k v t' : cht_insert (cht_moved t) k v <> Ok t'.
Proof. unfold cht_insert. intros E. binv E q E1. destruct q as [quo i]. binv E w E2. unfold to_cluster_head in E2. binv E2 y E3. exact (cht_moved_arr _ _ _ E3). Qed.
Lemma cht_moved_set VB L t k v t' : (ch_used t = 0 -> ch_size t = 0) -> cht_set VB L (cht_moved t) k v <> Ok t'.
Proof.
  intros H E. unfold cht_set in E. cbn [cht_set_fuel] in E. binv E t1 E1.
  destruct (cht_is_filled (cht_moved t)).
  - unfold cht_reserve_with in E1. cbn [cht_moved ch_size] in E1. destruct (Nat.leb_spec (size_twice (ch_size t)) (ch_size t)) as [Z|Z].
    + injection E1 as <-. exact (cht_moved_insert _ _ _ _ E).
    + binv E1 b E2. unfold cht_resize in E1. binv E1 next E3. remember (S (ch_bucket _)) as g in E1. destruct g as [|g]; [discriminate|].
      cbn [move_all cht_moved ch_used] in E1. destruct (Nat.ltb_spec 0 (ch_used t)) as [P|P].
      * binv E1 i E4. cbn [skip_to_cluster] in E4. binv E4 w E5. exact (cht_moved_arr _ _ _ E5).
      * assert (ch_used t = 0) as U by lia. rewrite (H U) in Z. vm_compute in Z. lia.
  - injection E1 as <-. exact (cht_moved_insert _ _ _ _ E).
Qed.

Lemma samc_moved_terminal s key : sm_terminal (samc_moved s) key = UB.
Proof.
  unfold sm_terminal. destruct key as [|c key]; cbn [sm_descend bind].
  - unfold sm_code. cbn [samc_moved sm_codes]. now rewrite lget_nil.
  - unfold sm_code. cbn [samc_moved sm_codes]. now rewrite lget_nil.
Qed.
Lemma samc_moved_accept s key : sm_accept (samc_moved s) key = UB.
Proof. unfold sm_accept. now rewrite samc_moved_terminal. Qed.
Lemma dict_moved_lookup t key : sd_lookup (dict_moved t) key = UB.
Proof. unfold sd_lookup. cbn [dict_moved sd_samc]. now rewrite samc_moved_terminal. Qed.
Lemma dict_moved_access selw t value : sd_access selw (dict_moved t) value = UB.
Proof. unfold sd_access. cbn [dict_moved sd_leaves]. unfold sb_moved. now rewrite sb_select_nil. Qed.
Lemma trie_moved_traverse A st (t : trie A) key : tr_traverse st (trie_moved t) key = UB.
Proof. unfold tr_traverse, tr_traverse_index. cbn [trie_moved tr_nodes]. destruct key; cbn [tr_walk bind]; now rewrite lget_nil. Qed.
Lemma trie_moved_insert A (t : trie A) key x : tr_insert (trie_moved t) key x = UB.
Proof. unfold tr_insert. cbn [trie_moved tr_nodes]. destruct key as [|c key]; cbn [foldM bind]; unfold insert_step at 1; cbv zeta; now rewrite ?lget_nil. Qed.

Lemma fv_moved_push v x : 1 <= fv_width v <= 63 -> (x < 2 ^ N.of_nat (fv_width v))%N ->
  exists v', fv_push_back (fv_moved v) x = Ok v' /\ fv_size v' = fv_size v + 1 /\ forall i, i < fv_size v + 1 -> fv_get v' i = Ok (if i =? fv_size v then x else 0%N).
Proof.
  intros W X. set (n := fv_size v). destruct (fv_history (fv_width v) [FVResize n; FVPush x] (repeat 0%N n ++ [x]) true W) as (v' & E & S & G & _).
  - repeat constructor; assumption.
  - cbn [nums_run nums_step length firstn]. rewrite firstn_nil, Nat.sub_0_r. reflexivity.
  - cbn. auto.
  - exists v'. split; [|split; [rewrite S, app_length, repeat_length; reflexivity|]].
    + rewrite <- E. unfold fv_run. cbn [foldM fv_step bind]. unfold fv_push_back, fv_resize. cbv zeta. cbn [fv_moved fv_make fv_size fv_words fv_width]. rewrite !lresize_nil, lresize_zeros. fold n. now destruct (fv_set _ _ _).
    + intros i Hi. apply G. destruct (Nat.eqb_spec i n) as [->|D].
      * rewrite nth_error_app2; rewrite repeat_length; [|lia]. now rewrite Nat.sub_diag.
      * rewrite nth_error_app1 by (rewrite repeat_length; lia). rewrite (nth_error_nth' _ 0%N) by (rewrite repeat_length; lia). f_equal. apply nth_repeat.
Qed.
