(** BuildCostModel.v does what the models of the containers do, and how much it counts. *)
From Coq Require Import List NArith ZArith Arith Bool Lia.
From Verif Require Import Base Spec CostBase BitUtilModel CalcModel BitVectorModel BitVectorProof SuccinctModel FitVectorModel WaveletModel DacModel MultiBitModel InitCostModel SearchCostModel SearchCost CalcExact SpaceProof BuildCostModel.
Import ListNotations.
Local Open Scope nat_scope.

Lemma cfree A B (r : res A) (f : A -> cres B) g c : (forall x, r = Ok x -> costs (f x) (g x) c) -> costs (cbind (free r) f) (bind r g) c.
Proof. intros H. apply (costs_bind _ _ _ _ 0 _ _ c); [apply costs_free|exact H]. Qed.
Lemma cpaid A B (r : res A) (f : A -> cres B) g c : (forall x, r = Ok x -> costs (f x) (g x) c) -> costs (cbind (paid r) f) (bind r g) (S c).
Proof. intros H. apply (costs_bind _ _ _ _ 1 _ _ c); [apply costs_paid|exact H]. Qed.
Lemma cticks B n (m : cres B) r c : costs m r c -> costs (cbind (ticks n) (fun _ => m)) r (n + c).
Proof.
  intros H k. unfold cbind, ticks. cbn. specialize (H (k + n)). destruct (m (k + n)) as [[k' x]| | |], r; auto. destruct H. split; [assumption|lia].
Qed.
Lemma cfold S X (f : S -> X -> cres S) g (c : X -> nat) : forall l, (forall s x, In x l -> costs (f s x) (g s x) (c x)) -> forall s, costs (foldC f l s) (foldM g l s) (list_sum (map c l)).
Proof.
  induction l as [|x l IH]; intros H s; [apply costs_ret|]. cbn [foldC foldM]. apply (costs_bind _ _ _ _ (c x) _ _ (list_sum (map c l))); [apply H; now left|].
  intros s' _. apply IH. intros. apply H. now right.
Qed.
Lemma sum_const X c : forall l : list X, list_sum (map (fun _ => c) l) = length l * c.
Proof. induction l; cbn [map length]; unfold list_sum in *; cbn [fold_right]; lia. Qed.
Lemma cfold_const S X (f : S -> X -> cres S) g c l : (forall s x, In x l -> costs (f s x) (g s x) c) -> forall s, costs (foldC f l s) (foldM g l s) (length l * c).
Proof. intros H s. rewrite <- sum_const. now apply (cfold _ _ _ _ (fun _ => c)). Qed.
Lemma cmap A B (f : A -> cres B) g c : (forall x, costs (f x) (g x) (c x)) -> forall l, costs (mapC f l) (mapM g l) (list_sum (map c l)).
Proof.
  intros H. induction l as [|x l IH]; [apply costs_ret|]. cbn [mapC mapM map]. unfold list_sum in *. cbn [fold_right].
  apply (costs_bind _ _ _ _ (c x)); [apply H|]. intros b _. rewrite <- (Nat.add_0_r (fold_right _ _ _)). apply costs_bind; [exact IH|]. intros bs _. apply costs_ret.
Qed.

(** ** BitVector *)
Lemma fill_inner_cost v from n ws : costs (fill_inner_c v from n ws) (fill_inner v from n ws) n.
Proof.
  unfold fill_inner_c, fill_inner. eapply costs_le; [apply cfold_const with (c := 1)|]; [|rewrite seq_length; lia]. intros s x _. apply costs_paid.
Qed.
Lemma bind_ret A (r : res A) : bind r (fun x => Ok x) = r.
Proof. now destruct r. Qed.
Lemma fill_cost ws x y bit : costs (fill_c ws (make_iter x) (make_iter y) bit) (fill ws (make_iter x) (make_iter y) bit)
  (if y <=? x then 0 else if x / 64 <? (y - 1) / 64 then 3 + ((y - 1) / 64 - x / 64) else 2).
Proof.
  unfold fill_c, fill. assert (L : iter_leb (make_iter y) (make_iter x) = (y <=? x)).
  { unfold iter_leb, iter_ltb, make_iter. cbn [seg ctz_]. pose proof (Nat.div_mod x 64). pose proof (Nat.div_mod y 64). pose proof (Nat.mod_upper_bound x 64). pose proof (Nat.mod_upper_bound y 64).
    destruct (Nat.leb_spec y x).
    - apply negb_true_iff, orb_false_iff. split; [apply Z.ltb_ge; lia|]. destruct (Z.eqb_spec (Z.of_nat (x / 64)) (Z.of_nat (y / 64))); [|reflexivity]. apply N.ltb_ge. lia.
    - apply negb_false_iff, orb_true_iff. destruct (Z.eqb_spec (Z.of_nat (x / 64)) (Z.of_nat (y / 64))); [right; apply N.ltb_lt; lia|left; apply Z.ltb_lt; lia]. }
  rewrite L. destruct (Nat.leb_spec y x); [apply costs_ret|]. rewrite iter_minus_1 by lia. cbv zeta.
  assert (G : (seg (make_iter x) <? seg (make_iter (y - 1)))%Z = (x / 64 <? (y - 1) / 64)).
  { cbn [seg make_iter]. destruct (Nat.ltb_spec (x / 64) ((y - 1) / 64)); [apply Z.ltb_lt|apply Z.ltb_ge]; lia. }
  rewrite G. set (d := (y - 1) / 64 - x / 64). assert (D : Z.to_nat (seg (make_iter (y - 1)) - (seg (make_iter x) + 1)) = d - 1) by (cbn [seg make_iter]; lia). rewrite D.
  destruct bit; destruct (Nat.ltb_spec (x / 64) ((y - 1) / 64)).
  1, 3: apply (costs_le _ _ _ (2 + ((d - 1) + 2))); [|lia]; apply cpaid; intros w _; apply cfree; intros m _; apply cpaid; intros ws1 _; apply costs_bind; [apply fill_inner_cost|]; intros ws2 _;
        apply cpaid; intros w2 _; apply cfree; intros m2 _; apply costs_paid.
  all: apply cpaid; intros w _; apply cfree; intros m _; apply cfree; intros m2 _; apply costs_paid.
Qed.
Lemma resize_cost v n bit : costs (bv_resize_c v n bit) (bv_resize v n bit)
  (if n <=? bv_size v then 0 else if bv_size v / 64 <? (n - 1) / 64 then 3 + ((n - 1) / 64 - bv_size v / 64) else 2).
Proof.
  unfold bv_resize_c, bv_resize. destruct (Nat.ltb_spec n (bv_size v)); [apply costs_ret|]. destruct (Nat.ltb_spec (bv_size v) n); [|apply costs_ret].
  rewrite <- (Nat.add_0_r (if n <=? _ then _ else _)). apply costs_bind; [apply fill_cost|]. intros ws _. apply costs_ret.
Qed.
Lemma push_cost v bit : costs (bv_push_back_c v bit) (bv_push_back v bit) 2.
Proof.
  eapply costs_le; [apply resize_cost|]. destruct (Nat.leb_spec (bv_size v + 1) (bv_size v)); [lia|]. replace (bv_size v + 1 - 1) with (bv_size v) by lia. rewrite Nat.ltb_irrefl. lia.
Qed.
Lemma resize_words v n bit : costs (bv_resize_c v n bit) (bv_resize v n bit) ((n - bv_size v) / 64 + 4).
Proof.
  eapply costs_le; [apply resize_cost|]. destruct (Nat.leb_spec n (bv_size v)); [lia|]. destruct (Nat.ltb_spec (bv_size v / 64) ((n - 1) / 64)); [|lia].
  pose proof (Nat.div_mod (n - 1) 64 ltac:(lia)). pose proof (Nat.mod_upper_bound (n - 1) 64 ltac:(lia)). pose proof (Nat.div_mod (bv_size v) 64 ltac:(lia)). pose proof (Nat.mod_upper_bound (bv_size v) 64 ltac:(lia)).
  pose proof (Nat.div_mod (n - bv_size v) 64 ltac:(lia)). pose proof (Nat.mod_upper_bound (n - bv_size v) 64 ltac:(lia)). lia.
Qed.
Lemma assign_words v n bit : costs (bv_assign_c v n bit) (bv_assign v n bit) (n / 64 + 3).
Proof.
  unfold bv_assign_c, bv_assign. rewrite <- (Nat.add_0_r (n / 64 + 3)). apply costs_bind; [|intros; apply costs_ret]. eapply costs_le; [apply fill_cost|].
  destruct (Nat.leb_spec n 0); [lia|]. pose proof (Nat.div_le_mono (n - 1) n 64 ltac:(lia) ltac:(lia)). change (0 / 64) with 0. destruct (0 <? (n - 1) / 64); lia.
Qed.

(** ** SuccinctBitVector *)
Lemma block_step_cost ws st i : costs (block_step_c ws st i) (block_step ws st i) (if i mod 8 =? 0 then 4 else 1).
Proof.
  destruct st as [[b s] w]. unfold block_step_c, block_step. destruct (i mod 8 =? 0).
  - cbv zeta. apply (costs_bind _ _ _ _ 3 _ _ 1).
    + apply cpaid; intros ? _. apply cpaid; intros ? _. apply cpaid; intros ? _. apply costs_ret.
    + intros [[b' s'] w'] _. apply cpaid. intros ? _. apply costs_ret.
  - apply (costs_bind _ _ _ _ 0 _ _ 1).
    + apply cfree; intros ? _. apply costs_ret.
    + intros [[b' s'] w'] _. apply cpaid. intros ? _. apply costs_ret.
Qed.
Lemma block_finish_cost st i : costs (block_finish_c st i) (block_finish st i) (if i mod 8 =? 0 then 4 else 1).
Proof.
  destruct st as [[b s] w]. unfold block_finish_c, block_finish. cbv zeta. destruct (i mod 8 =? 0); cbn [negb].
  - apply cpaid; intros ? _. apply cpaid; intros ? _. apply cpaid; intros ? _. apply costs_paid.
  - apply cfree; intros ? _. apply costs_paid.
Qed.
Lemma sum_blocks : forall n, list_sum (map (fun i => if i mod 8 =? 0 then 4 else 1) (seq 1 n)) = n + 3 * (n / 8).
Proof.
  induction n as [|n IH]; [reflexivity|]. rewrite seq_S, map_app. unfold list_sum in *. rewrite fold_right_app. cbn [map fold_right].
  assert (F : forall l a, fold_right Nat.add a l = fold_right Nat.add 0 l + a) by (induction l; intros; cbn [fold_right]; [reflexivity|rewrite IHl; lia]).
  rewrite F, IH. change (1 + n) with (S n). pose proof (Nat.div_mod n 8 ltac:(lia)). pose proof (Nat.mod_upper_bound n 8 ltac:(lia)). pose proof (Nat.div_mod (S n) 8 ltac:(lia)). pose proof (Nat.mod_upper_bound (S n) 8 ltac:(lia)).
  destruct (Nat.eqb_spec (S n mod 8) 0); lia.
Qed.
(** words read, and directory words touched *)
Lemma block_cost v : costs (build_block_c v) (build_block v) (Nat.max 1 (bv_size v / 64) + 3 * (bv_size v / 512) + 3).
Proof.
  unfold build_block_c, build_block. cbv zeta. set (n := bv_size v / 64). assert (E : bv_size v / 512 = n / 8) by (unfold n; rewrite Nat.div_div by lia; reflexivity).
  apply (costs_le _ _ _ (S (2 + (list_sum (map (fun i => if i mod 8 =? 0 then 4 else 1) (seq 1 (n - 1))) + (if Nat.max 1 n mod 8 =? 0 then 4 else 1))))).
  - apply cpaid. intros w _. apply cticks. apply costs_bind; [|intros; apply block_finish_cost]. apply cfold. intros s x _. apply block_step_cost.
  - rewrite sum_blocks, E. destruct (Nat.eq_dec n 0) as [->|Z]; [cbn; lia|]. rewrite !Nat.max_r by lia.
    pose proof (Nat.div_mod n 8 ltac:(lia)). pose proof (Nat.mod_upper_bound n 8 ltac:(lia)). pose proof (Nat.div_mod (n - 1) 8 ltac:(lia)). pose proof (Nat.mod_upper_bound (n - 1) 8 ltac:(lia)).
    destruct (Nat.eqb_spec (n mod 8) 0); lia.
Qed.
Lemma tips_cost block nb : 1 <= nb -> costs (build_tips_c block nb) (build_tips block nb) (2 * nb).
Proof.
  intros H. unfold build_tips_c, build_tips. apply (costs_le _ _ _ (2 + ((nb - 1) * 2 + 0))); [|lia]. apply cticks. apply costs_bind; [|intros; apply costs_ret].
  rewrite <- (seq_length (nb - 1) 1) at 3. apply cfold_const. intros [t th] j _. unfold tips_step_c, tips_step. apply cpaid. intros b _. destruct (th <=? b)%N; [apply costs_paid|apply costs_ret].
Qed.
Definition words_and_directory (us : bool) (n : nat) : nat := Nat.max 1 (n / 64) + 3 * (n / 512) + 3 + (if us then 2 * (n / 512 + 1) else 0).
Lemma build_cost us v : costs (sb_build_c us v) (sb_build us v) (words_and_directory us (bv_size v)).
Proof.
  unfold sb_build_c, sb_build, words_and_directory. destruct (Nat.eqb_spec (bv_size v) 0).
  - apply (costs_le _ _ _ (2 + 0)); [|lia]. apply cticks. apply costs_ret.
  - apply costs_bind; [apply block_cost|]. intros b _. rewrite <- (Nat.add_0_r (if us then _ else _)). apply costs_bind; [|intros; apply costs_ret].
    destruct us; [apply tips_cost; lia|apply costs_ret].
Qed.
Lemma rank_only n : 512 * words_and_directory false n <= 11 * n + 2048.
Proof.
  unfold words_and_directory. pose proof (Nat.div_mod n 64 ltac:(lia)). pose proof (Nat.div_mod n 512 ltac:(lia)). lia.
Qed.
Lemma nodes_cost src : 512 * list_sum (map (fun n => words_and_directory false (bv_size n)) src) <= 11 * total src + 2048 * length src.
Proof.
  unfold total, list_sum. induction src as [|a s IH]; cbn [map fold_right length]; [lia|]. pose proof (rank_only (bv_size a)). lia.
Qed.

(** ** FitVector *)
Lemma write_cost ws i off w x : costs (bits_write_c ws i off w x) (bits_write ws i off w x) 4.
Proof.
  unfold bits_write_c, bits_write. cbv zeta. apply cfree; intros ? _. apply cpaid; intros ? _. apply cfree; intros ? _. apply cfree; intros ? _. apply cpaid; intros ? _.
  destruct (64 <? w + off); [|apply costs_ret]. apply cpaid; intros ? _. apply cfree; intros ? _. apply cfree; intros ? _. apply costs_paid.
Qed.
Lemma fv_set_cost v i x : costs (fv_set_c v i x) (fv_set v i x) 4.
Proof. unfold fv_set_c, fv_set. apply (costs_bind _ _ _ _ 4 _ _ 0); [apply write_cost|]. intros; apply costs_ret. Qed.
Lemma fv_push_cost v x : costs (fv_push_back_c v x) (fv_push_back v x) 4.
Proof. apply fv_set_cost. Qed.
Lemma fv_resize_value_cost v n x : costs (fv_resize_value_c v n x) (fv_resize_value v n x) (4 * (n - fv_size v)).
Proof.
  unfold fv_resize_value_c, fv_resize_value. eapply costs_le; [apply cfold_const with (c := 4); intros; apply fv_set_cost|]. rewrite seq_length. lia.
Qed.
Lemma fv_assign_cost v n x : costs (fv_assign_c v n x) (fv_assign v n x) (4 * n).
Proof. unfold fv_assign_c, fv_assign. eapply costs_le; [apply cfold_const with (c := 4); intros; apply fv_set_cost|]. rewrite seq_length. lia. Qed.
Lemma fv_of_list_cost l : costs (fv_of_list_c l) (fv_of_list l) (6 * length l).
Proof.
  unfold fv_of_list_c, fv_of_list. apply (costs_le _ _ _ (length l + length l * 5)); [|lia]. apply cticks. apply cfree. intros w _. apply cfold_const.
  intros s x _. apply (cticks _ 1). apply fv_push_cost.
Qed.

(** ** WaveletTree *)
Lemma insert_cost : forall k nodes id v, costs (wt_insert_c k nodes id v) (wt_insert k nodes id v) (3 * k).
Proof.
  induction k as [|k IH]; intros; [apply costs_ret|]. cbn [wt_insert_c wt_insert]. cbv zeta. apply (costs_le _ _ _ (S (2 + 3 * k))); [|lia].
  apply cpaid. intros n _. apply costs_bind; [apply push_cost|]. intros n' _. apply cfree. intros ns _. apply IH.
Qed.
Lemma insert_length : forall k nodes id v nodes', wt_insert k nodes id v = Ok nodes' -> length nodes' = length nodes.
Proof.
  induction k as [|k IH]; intros nodes id v nodes' E; cbn [wt_insert] in E; [now injection E as <-|]. cbv zeta in E.
  apply bind_Ok_inv in E. destruct E as (n & _ & E). apply bind_Ok_inv in E. destruct E as (n' & _ & E). apply bind_Ok_inv in E. destruct E as (ns & Es & E).
  apply IH in E. apply lset_inv in Es. destruct Es as (_ & ->). now rewrite upd_length in E.
Qed.
Lemma insert_all_length h : forall l nodes nodes', foldM (fun nodes v => wt_insert h nodes 1 v) l nodes = Ok nodes' -> length nodes' = length nodes.
Proof.
  induction l as [|x l IH]; intros nodes nodes' E; cbn [foldM] in E; [now injection E as <-|]. apply bind_Ok_inv in E. destruct E as (n1 & E1 & E). apply insert_length in E1. apply IH in E. congruence.
Qed.
Lemma wavelet_cost l h : SizeFitsInBits (max_element l) = Ok h -> costs (wt_make_c l) (wt_make l) (length l * (3 * h + 2) + 11 * (length l * h) / 512 + 5 * (2 ^ h - 1)).
Proof.
  intros Eh. unfold wt_make_c, wt_make. destruct l as [|a l']; [apply costs_free|]. set (l := a :: l') in *. cbv zeta. set (N := 2 ^ h - 1).
  apply (costs_le _ _ _ (length l + (N + (length l * (1 + 3 * h) + ((11 * (length l * h) / 512 + 4 * N) + 0))))); [|lia].
  apply cticks. rewrite Eh. cbn [bind]. change (cbind (free (Ok h)) ?f) with (fun k => f h k). unfold cbind at 1. cbn [free bind fst snd]. 
  change (costs (if 32 <=? h then free UB else count _ <- ticks (2 ^ h - 1);
      count src <- foldC (fun nodes v => count _ <- ticks 1; wt_insert_c h nodes 1 v) l (repeat bv_default (2 ^ h - 1));
      count nodes <- mapC (sb_build_c false) src;
      cret (WT h (wrap64 (max_element l + 1)) nodes))
    (if 32 <=? h then UB else do src <- foldM (fun nodes v => wt_insert h nodes 1 v) l (repeat bv_default (2 ^ h - 1));
      do nodes <- mapM (sb_build false) src;
      Ok (WT h (wrap64 (max_element l + 1)) nodes))
    (N + (length l * (1 + 3 * h) + (11 * (length l * h) / 512 + 4 * N + 0)))).
  destruct (32 <=? h); [apply costs_free|]. apply cticks. apply costs_bind.
  - apply cfold_const. intros s x _. apply cticks. apply insert_cost.
  - intros src Es. apply costs_bind; [|intros; apply costs_ret]. eapply costs_le; [apply cmap; intros; apply build_cost|].
    pose proof (nodes_cost src) as B. pose proof (insert_all_length _ _ _ _ Es) as L. rewrite repeat_length in L. apply insert_all_total in Es. rewrite total_default in Es.
    fold N in L. rewrite L, Es in B. set (S := list_sum _) in *. rewrite Nat.add_0_l in B. set (m := length l * h) in *. clearbody m S N. clear - B.
    pose proof (Nat.div_mod (11 * m) 512 ltac:(lia)). pose proof (Nat.mod_upper_bound (11 * m) 512 ltac:(lia)). lia.
Qed.

(** ** DacVector *)
Lemma blf_cost l : costs (bit_length_frequencies_c l) (bit_length_frequencies l) (3 * length l).
Proof.
  unfold bit_length_frequencies_c, bit_length_frequencies. apply (costs_le _ _ _ (length l * 3 + 0)); [|lia].
  replace (rmap fst (foldM blf_step l ([], 0))) with (do st <- foldM blf_step l ([], 0); Ok (fst st)) by (now destruct (foldM _ _ _)).
  apply costs_bind; [|intros; apply costs_ret]. apply cfold_const. intros [m s] v _. apply (cticks _ 1). unfold blf_step_c, blf_step. apply cfree. intros size _.
  destruct (if s <? size then _ else _) as [m' s']. apply cpaid; intros ? _. apply cpaid; intros ? _. apply costs_ret.
Qed.
Lemma max_bits_63 l : forallb (fun v => (v <? 2 ^ 63)%N) l = true -> max_bits l <= 63.
Proof.
  intros H. unfold max_bits. induction l as [|x l IH]; cbn [map fold_right]; [lia|]. cbn [forallb] in H. apply andb_true_iff in H. destruct H as [H1 H2]. specialize (IH H2).
  apply N.ltb_lt in H1. set (q := fold_right Nat.max 0 _) in *. clearbody q. unfold bits_needed. destruct (N.eqb_spec x 0); [lia|]. assert (N.log2 x < 63)%N by (apply N.log2_lt_pow2; [lia|exact H1]). lia.
Qed.
Lemma cfl_cost l : costs (cummulative_frequency_list_c l) (cummulative_frequency_list l) (3 * length l + 126).
Proof.
  unfold cummulative_frequency_list_c, cummulative_frequency_list. apply costs_bind; [apply blf_cost|]. intros m Em.
  rewrite frequencies_exact in Em. destruct (forallb _ l) eqn:F; [|discriminate]. assert (L : length m <= 63) by (injection Em as <-; rewrite map_length, seq_length; now apply max_bits_63).
  replace (rmap fst (foldM (cfl_step m) (rev (seq 1 (length m))) (repeat 0 (length m), 0))) with (do st <- foldM (cfl_step m) (rev (seq 1 (length m))) (repeat 0 (length m), 0); Ok (fst st)) by (now destruct (foldM _ _ _)).
  apply (costs_le _ _ _ (length m * 2 + 0)); [|lia]. apply costs_bind; [|intros; apply costs_ret]. eapply costs_le; [apply cfold_const with (c := 2)|rewrite rev_length, seq_length; lia].
  intros [cf t] i _. unfold cfl_step_c, cfl_step. apply cpaid; intros ? _. apply cpaid; intros ? _. apply costs_ret.
Qed.
Lemma push_deep_cost : forall us Ls ps x, costs (dac_push_deep_c us Ls ps x) (dac_push_deep us Ls ps x) (6 * length us).
Proof.
  induction us as [|u us IH]; intros Ls ps x; [apply costs_ret|]. cbn [dac_push_deep_c dac_push_deep length]. destruct ps as [|p ps]; [apply costs_free|]. cbv zeta.
  apply (costs_le _ _ _ (2 + (4 + 6 * length us))); [|lia]. apply costs_bind; [apply push_cost|]. intros p' _. destruct (negb (0 <? x)%N); [apply costs_ret|].
  destruct Ls as [|L Ls]; [apply costs_free|]. apply cfree; intros ? _. apply costs_bind; [apply fv_push_cost|]. intros L' _. apply cfree; intros ? _.
  rewrite <- (Nat.add_0_r (6 * length us)). apply costs_bind; [apply IH|]. intros; apply costs_ret.
Qed.
Lemma dac_push_cost us st x : costs (dac_push_c us st x) (dac_push us st x) (6 * length us).
Proof.
  destruct st as [Ls ps]. unfold dac_push_c, dac_push. destruct us as [|u us]; [apply costs_free|]. destruct Ls as [|L Ls]; [apply costs_free|].
  apply (costs_le _ _ _ (4 + (6 * length us + 0))); [|cbn [length]; lia]. apply cfree; intros ? _. apply costs_bind; [apply fv_push_cost|]. intros L' _. apply cfree; intros ? _.
  apply costs_bind; [apply push_deep_cost|]. intros; apply costs_ret.
Qed.
Lemma push_deep_total : forall us Ls ps x r, dac_push_deep us Ls ps x = Ok r -> total (snd r) <= total ps + length us /\ length (snd r) = length ps.
Proof.
  induction us as [|u us IH]; intros Ls ps x r E; cbn [dac_push_deep] in E; [injection E as <-; cbn [snd length]; lia|].
  destruct ps as [|p ps]; [discriminate|]. cbv zeta in E. apply bind_Ok_inv in E. destruct E as (p' & Ep & E). apply push_size in Ep.
  destruct (negb (0 <? x)%N).
  - injection E as <-. unfold total, list_sum. cbn [snd map fold_right length]. lia.
  - destruct Ls as [|L Ls]; [discriminate|]. apply bind_Ok_inv in E. destruct E as (m & _ & E). apply bind_Ok_inv in E. destruct E as (L' & _ & E). apply bind_Ok_inv in E. destruct E as (x' & _ & E).
    apply bind_Ok_inv in E. destruct E as (r' & Er & E). injection E as <-. apply IH in Er. unfold total, list_sum in *. cbn [snd map fold_right length]. lia.
Qed.
Lemma pushes_total u us : forall l st st', foldM (dac_push (u :: us)) l st = Ok st' -> total (snd st') <= total (snd st) + length l * length us /\ length (snd st') = length (snd st).
Proof.
  induction l as [|x l IH]; intros st st' E; cbn [foldM] in E; [injection E as <-; cbn [length]; lia|]. apply bind_Ok_inv in E. destruct E as (s1 & E1 & E). apply IH in E.
  destruct st as [Ls ps]. unfold dac_push in E1. destruct Ls as [|L Ls]; [discriminate|]. apply bind_Ok_inv in E1. destruct E1 as (m & _ & E1). apply bind_Ok_inv in E1. destruct E1 as (L' & _ & E1).
  apply bind_Ok_inv in E1. destruct E1 as (x' & _ & E1). apply bind_Ok_inv in E1. destruct E1 as (r & Er & E1). injection E1 as <-. apply push_deep_total in Er. cbn [snd length] in *. lia.
Qed.
Lemma reserve_cost : forall us cf t, costs (dac_reserve_c cf us t) (dac_reserve cf us t) (length us).
Proof.
  induction us as [|u us IH]; intros cf t; [apply costs_ret|]. cbn [dac_reserve_c dac_reserve length]. apply cpaid. intros c _. destruct ((u =? 0) && negb (c =? 0)); [apply costs_free|apply IH].
Qed.
Lemma dac_cost units l : costs (dac_build_c units l) (dac_build units l) (length l * (6 * length units + 4) + 11 * (length l * (length units - 1)) / 512 + 5 * length units + 126).
Proof.
  unfold dac_build_c, dac_build. destruct units as [|u us]; [apply costs_free|]. set (units := u :: us).
  apply (costs_le _ _ _ ((3 * length l + 126) + (length units + (length l * (1 + 6 * length units) + ((11 * (length l * length us) / 512 + 4 * length us) + 0))))).
  - apply costs_bind; [apply cfl_cost|]. intros cf _. apply costs_bind; [apply reserve_cost|]. intros _ _. apply costs_bind.
    + apply cfold_const. intros s x _. apply cticks. apply dac_push_cost.
    + intros st Es. apply costs_bind; [|intros; apply costs_ret]. eapply costs_le; [apply cmap; intros; apply build_cost|].
      apply pushes_total in Es. cbn [snd] in Es. rewrite total_default, repeat_length in Es. destruct Es as [T L]. pose proof (nodes_cost (snd st)) as B. rewrite L in B.
      set (S := list_sum _) in *. set (m := length l * length us) in *. clearbody m S. clear - B T. pose proof (Nat.div_mod (11 * m) 512 ltac:(lia)). pose proof (Nat.mod_upper_bound (11 * m) 512 ltac:(lia)). lia.
  - unfold units. cbn [length]. replace (S (length us) - 1) with (length us) by lia. lia.
Qed.

(** ** MultiBitVector *)
Lemma mb_tip_cost U type ws st i : costs (mb_tip_c U type ws st i) (mb_tip U type ws st i) (1 + 2 * kBlocksInTipSize U).
Proof.
  destruct st as [tips t]. unfold mb_tip_c, mb_tip. apply cticks. rewrite <- (Nat.add_0_r (2 * _)). apply costs_bind; [|intros; apply costs_ret].
  eapply costs_le; [apply cfold_const with (c := 2)|rewrite seq_length; lia]. intros [l2 c] off _. unfold mb_tip_step_c, mb_tip_step. apply (cticks _ 1). cbv zeta.
  destruct (_ <? _); [|apply costs_ret]. apply cpaid; intros ? _. apply costs_ret.
Qed.
Lemma num_types_cost U v : costs (mb_num_types_c U v) (mb_num_types U v) (length (mb_bits v) * kBitsInType U / U).
Proof.
  unfold mb_num_types_c, mb_num_types. eapply costs_le; [apply cfold_const with (c := 1)|rewrite seq_length; lia]. intros s i _. apply (costs_bind _ _ _ _ 1 _ _ 0); [apply mb_get_cost|]. intros; apply costs_ret.
Qed.
Lemma num_types_max U v : forall l n n', n <= 2 ^ U -> foldM (fun n i => do x <- mb_get U v i; Ok (Nat.max n (N.to_nat x + 1))) l n = Ok n' -> n' <= 2 ^ U.
Proof.
  induction l as [|i l IH]; intros n n' H E; cbn [foldM] in E; [now injection E as <-|]. apply bind_Ok_inv in E. destruct E as (n1 & E1 & E). apply IH in E; [assumption|].
  apply bind_Ok_inv in E1. destruct E1 as (x & Ex & E1). injection E1 as <-. unfold mb_get in Ex. apply bind_Ok_inv in Ex. destruct Ex as (w & _ & Ex). apply bind_Ok_inv in Ex. destruct Ex as (y & _ & Ex).
  injection Ex as <-. unfold kBitsMask. rewrite N.sub_1_r, <- N.ones_equiv, N.land_ones. pose proof (N.mod_upper_bound y (2 ^ N.of_nat U) ltac:(apply N.pow_nonzero; lia)) as B.
  assert (N.of_nat (2 ^ U) = (2 ^ N.of_nat U)%N) as P by (rewrite Nat2N.inj_pow; reflexivity). lia.
Qed.
Lemma multibit_cost U v : 1 <= U <= 3 -> costs (mb_build_c U v) (mb_build U v)
  (64 / U * length (mb_bits v) + (2 ^ U - 1) * (3 * length (mb_bits v) + 8 * U)).
Proof.
  intros HU. unfold mb_build_c, mb_build. destruct (Nat.eqb_spec (length (mb_bits v)) 0) as [Z|Z]; [apply costs_ret|]. cbv zeta. set (n := length (mb_bits v)) in *.
  set (T := (n + kBlocksInTipSize U - 1) / kBlocksInTipSize U).
  assert (K : kBlocksInTipSize U = 4 * U) by (destruct U as [|[|[|[|]]]]; try lia; reflexivity).
  assert (HT : T * (1 + 2 * kBlocksInTipSize U) <= 3 * n + 8 * U).
  { unfold T. rewrite K. pose proof (Nat.div_mod (n + 4 * U - 1) (4 * U) ltac:(lia)) as D. pose proof (Nat.mod_upper_bound (n + 4 * U - 1) (4 * U) ltac:(lia)). set (q := (n + 4 * U - 1) / (4 * U)) in *. nia. }
  apply (costs_le _ _ _ (n * kBitsInType U / U + ((2 ^ U - 1) * (T * (1 + 2 * kBlocksInTipSize U)) + 0))).
  - apply costs_bind; [apply num_types_cost|]. intros nt En. apply num_types_max in En; [|lia]. apply costs_bind; [|intros; apply costs_ret].
    eapply costs_le; [apply cfold_const with (c := T * (1 + 2 * kBlocksInTipSize U) + 0)|].
    + intros all type _. apply costs_bind; [|intros; apply costs_free]. eapply costs_le; [apply cfold_const with (c := 1 + 2 * kBlocksInTipSize U); intros; apply mb_tip_cost|]. rewrite seq_length. apply le_n.
    + rewrite seq_length, Nat.add_0_r. apply Nat.mul_le_mono_r. lia.
  - assert (P : n * kBitsInType U / U = 64 / U * n).
    { destruct U as [|[|[|[|]]]]; try lia; [change (kBitsInType 1) with 64|change (kBitsInType 2) with (32 * 2)|change (kBitsInType 3) with (21 * 3)].
      - rewrite Nat.div_1_r. change (64 / 1) with 64. lia.
      - rewrite Nat.mul_assoc, Nat.div_mul by lia. change (64 / 2) with 32. lia.
      - rewrite Nat.mul_assoc, Nat.div_mul by lia. change (64 / 3) with 21. lia. }
    rewrite P. apply Nat.add_le_mono_l. rewrite Nat.add_0_r. now apply Nat.mul_le_mono_l.
Qed.
Lemma wavelet_any l : let h := bits_needed (max_element l) in costs (wt_make_c l) (wt_make l) (length l * (3 * h + 2) + 11 * (length l * h) / 512 + 5 * (2 ^ h - 1)).
Proof.
  cbv zeta. destruct (N.ltb_spec (max_element l) (2 ^ 63)) as [H|H].
  - apply wavelet_cost. rewrite bits_total. apply N.ltb_lt in H. now rewrite H.
  - assert (E : SizeFitsInBits (max_element l) = UB) by (rewrite bits_total; apply N.ltb_ge in H; now rewrite H).
    intros k. unfold wt_make_c, wt_make. destruct l as [|a l']; [exact I|]. unfold cbind, ticks. cbv zeta. rewrite E. exact I.
Qed.
