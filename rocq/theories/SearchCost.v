(** How many elements the searches read. *)
From Coq Require Import List NArith ZArith Arith Bool Lia.
From Verif Require Import Base Spec CostBase BitUtilModel BitVectorModel SuccinctModel SamcModel TrieModel FoModel MultiBitModel QueryCostModel QueryCost SearchCostModel.
Import ListNotations.
Ltac Zify.zify_post_hook ::= idtac.
Local Open Scope nat_scope.

Lemma in_range_cost s i d : costs (in_range_c s i d) (in_range s i d) 2.
Proof.
  unfold in_range_c, in_range. apply (costs_bind _ _ _ _ 1 _ _ 1); [apply costs_paid|]. intros a _. apply costs_if; [|apply costs_ret].
  apply (costs_bind _ _ _ _ 1 _ _ 0); [apply costs_paid|]. intros b _. apply costs_ret.
Qed.
Lemma descend_cost : forall key s n d, costs (sm_descend_c s n d key) (sm_descend s n d key) (4 * length key).
Proof.
  induction key as [|c key IH]; intros s n d; cbn [sm_descend_c sm_descend]; [apply costs_ret|]. apply (costs_le _ _ _ (1 + (2 + (1 + 4 * length key)))); [|cbn [length]; lia].
  apply costs_bind; [apply costs_paid|]. intros code _. cbv zeta. apply costs_bind; [apply in_range_cost|]. intros ok _. apply costs_if; [apply costs_ret|].
  apply costs_bind; [apply costs_paid|]. intros b _. apply costs_if; [apply costs_ret|apply IH].
Qed.
Lemma terminal_cost key s : costs (sm_terminal_c s key) (sm_terminal s key) (4 * (length key + 1)).
Proof.
  unfold sm_terminal_c, sm_terminal. replace (4 * (length key + 1)) with (4 * length key + 4) by lia. apply costs_bind; [apply descend_cost|]. intros [n|] _; [|apply costs_ret].
  apply (costs_bind _ _ _ _ 1 _ _ 3); [apply costs_paid|]. intros code _. cbv zeta. apply (costs_bind _ _ _ _ 2 _ _ 1); [apply in_range_cost|]. intros ok _. apply costs_if; [apply costs_ret|].
  apply (costs_bind _ _ _ _ 1 _ _ 0); [apply costs_paid|]. intros b _. apply costs_ret.
Qed.
Lemma accept_cost key s : costs (sm_accept_c s key) (sm_accept s key) (4 * (length key + 1)).
Proof.
  unfold sm_accept_c, sm_accept. rewrite <- (Nat.add_0_r (4 * (length key + 1))). apply costs_bind; [apply terminal_cost|]. intros r _. apply costs_ret.
Qed.
Lemma lookup_cost key t : costs (sd_lookup_c t key) (sd_lookup t key) (4 * (length key + 1) + 3).
Proof.
  unfold sd_lookup_c, sd_lookup. apply costs_bind; [apply terminal_cost|]. intros [i|] _; [|apply costs_ret].
  apply (costs_bind _ _ _ _ 3 _ _ 0); [apply sb_rank_cost|]. intros id _. apply costs_ret.
Qed.

(** upper_bound on a sorted list *)
Definition sorted (l : list nat) : Prop := forall i j, i <= j -> j < length l -> nth i l 0 <= nth j l 0.
Lemma filter_count : forall l x n, n <= length l -> (forall i, i < n -> nth i l 0 <= x) -> (forall i, n <= i -> i < length l -> x < nth i l 0) ->
  length (filter (fun h => h <=? x) l) = n.
Proof.
  induction l as [|h l IH]; intros x n Hn A B; cbn [length] in Hn; [cbn; lia|]. cbn [filter]. destruct n as [|n].
  - pose proof (B 0 ltac:(lia) ltac:(cbn; lia)) as B0. cbn [nth] in B0. rewrite (proj2 (Nat.leb_gt _ _)) by exact B0. apply IH; [lia|intros; lia|]. intros i _ Hi. apply (B (S i)); cbn [length]; lia.
  - pose proof (A 0 ltac:(lia)) as A0. cbn [nth] in A0. rewrite (proj2 (Nat.leb_le _ _)) by exact A0. cbn [length]. f_equal. apply IH; [lia|intros i Hi; apply (A (S i)); lia|]. intros i Hi Hl. apply (B (S i)); cbn [length]; lia.
Qed.
Lemma half_log : forall len h, 1 <= len -> h <= len / 2 -> Nat.log2_up (h + 1) + 1 <= Nat.log2_up (len + 1).
Proof.
  intros len h H1 H2. set (k := Nat.log2_up (len + 1)). assert (K1 : 1 <= k) by (pose proof (Nat.log2_up_pos (len + 1) ltac:(lia)); unfold k; lia).
  destruct (Nat.log2_up_spec (len + 1) ltac:(lia)) as [_ X]. fold k in X. replace k with (S (k - 1)) in X by lia. rewrite Nat.pow_succ_r' in X.
  pose proof (Nat.div_mod len 2 ltac:(lia)). pose proof (Nat.mod_upper_bound len 2 ltac:(lia)).
  assert (Y : h + 1 <= 2 ^ (k - 1)) by (generalize dependent (2 ^ (k - 1)); intros; lia).
  apply Nat.log2_up_le_mono in Y. rewrite Nat.log2_up_pow2 in Y by lia. lia.
Qed.
Lemma upper_bound_cost : forall fuel l x first len, sorted l -> len <= fuel -> first + len <= length l ->
  (forall i, i < first -> nth i l 0 <= x) -> (forall i, first + len <= i -> i < length l -> x < nth i l 0) ->
  costs (upper_bound_c fuel l x first len) (Ok (length (filter (fun h => h <=? x) l))) (Nat.log2_up (len + 1)).
Proof.
  induction fuel as [|fuel IH]; intros l x first len S F L A B.
  - assert (len = 0) by lia. subst. cbn [upper_bound_c]. rewrite (filter_count l x first); auto; [apply costs_ret|lia|]. intros i Hi. apply B. lia.
  - destruct len as [|n] eqn:En.
    { cbn [upper_bound_c]. rewrite (filter_count l x first); auto; [apply costs_ret|lia|]. intros i Hi. apply B. lia. }
    cbn [upper_bound_c]. rewrite <- En in *. assert (Hl : 1 <= len) by lia. clear n En. set (half := len / 2).
    assert (Hh : half < len) by (apply Nat.div_lt; lia). rewrite (lget_nth _ l (first + half) 0) by lia.
    pose proof (half_log len half Hl ltac:(lia)) as G. pose proof (half_log len (len - half - 1) Hl) as G'.
    assert (len - half - 1 <= len / 2). { unfold half. pose proof (Nat.div_mod len 2 ltac:(lia)). pose proof (Nat.mod_upper_bound len 2 ltac:(lia)). lia. }
    specialize (G' H). apply (costs_le _ _ _ (1 + (Nat.log2_up (len + 1) - 1))); [|lia].
    change (Ok (length (filter (fun h => h <=? x) l))) with (bind (Ok (nth (first + half) l 0)) (fun _ => Ok (length (filter (fun h => h <=? x) l)))).
    apply costs_bind; [apply costs_paid|]. intros h E. injection E as <-. destruct (Nat.ltb_spec x (nth (first + half) l 0)) as [Q|Q].
    + eapply costs_le; [apply IH; auto; try lia|lia]. intros i Hi Hj. pose proof (S (first + half) i ltac:(lia) Hj). lia.
    + eapply costs_le; [apply IH; auto; try lia|lia].
      * intros i Hi. pose proof (S i (first + half) ltac:(lia) ltac:(lia)). lia.
      * intros i Hi Hj. apply B; lia.
Qed.

(** the heads of a built automaton are sorted *)
Lemma last_sorted : forall l x, sorted l -> (forall i, i < length l -> nth i l 0 <= x) -> sorted (l ++ [x]).
Proof.
  intros l x S H i j Hij Hj. rewrite app_length in Hj. cbn [length] in Hj. destruct (Nat.lt_ge_cases j (length l)) as [J|J].
  - rewrite !app_nth1 by lia. auto.
  - rewrite (app_nth2 l [x] 0 J). replace (j - length l) with 0 by lia. cbn [nth]. destruct (Nat.lt_ge_cases i (length l)) as [I|I]; [rewrite app_nth1 by lia; auto|]. rewrite app_nth2 by lia. replace (i - length l) with 0 by lia. cbn. lia.
Qed.
Lemma heads_sorted : forall fuel legacy d h0 h1 head codes map queue r, sorted head -> (forall i, i < length head -> nth i head 0 <= h1) ->
  build_levels legacy fuel d h0 h1 head codes map queue = Ok r -> sorted (fst (fst r)).
Proof.
  induction fuel as [|fuel IH]; intros legacy d h0 h1 head codes map queue r S H E; cbn [build_levels] in E; destruct queue as [|q queue]; try (injection E as <-; exact S); [discriminate|].
  apply bind_Ok_inv in E. destruct E as (edges & _ & E). apply bind_Ok_inv in E. destruct E as (st & _ & E). apply IH in E; auto.
  - apply last_sorted; auto. intros i Hi. specialize (H i Hi). lia.
  - intros i Hi. rewrite app_length in Hi. cbn [length] in Hi. destruct (Nat.lt_ge_cases i (length head)) as [I|I].
    + rewrite app_nth1 by lia. specialize (H i I). lia.
    + rewrite app_nth2 by lia. replace (i - length head) with 0 by lia. cbn. lia.
Qed.
Lemma built_sorted : forall legacy fuel K s, sm_build legacy fuel K = Ok s -> sorted (sm_head s).
Proof.
  intros legacy fuel K s E. unfold sm_build in E. apply bind_Ok_inv in E. destruct E as ([[h c] m] & E1 & E). apply bind_Ok_inv in E. destruct E as (st & _ & E). injection E as <-. cbn [sm_head].
  apply heads_sorted in E1; auto.
  - intros i j Hij Hj. cbn [length] in Hj. destruct i as [|[|i]], j as [|[|j]]; cbn [nth]; lia.
  - intros i Hi. cbn [length] in Hi. destruct i as [|[|i]]; cbn [nth]; lia.
Qed.

Lemma climb_cost : forall d s n text, costs (sd_climb_c s n d text) (sd_climb s n d text) (2 * d).
Proof.
  induction d as [|d IH]; intros s n text; cbn [sd_climb_c sd_climb]; [apply costs_ret|]. apply (costs_le _ _ _ (1 + (1 + 2 * d))); [|lia].
  apply costs_bind; [apply costs_paid|]. intros c _. apply costs_bind; [apply costs_paid|]. intros code _. apply costs_if; [|apply IH]. destruct d; [apply costs_ret|apply costs_free].
Qed.
Lemma climb_length : forall d s n text r, sd_climb s n d text = Ok r -> length r = d + length text.
Proof.
  induction d as [|d IH]; intros s n text r E; cbn [sd_climb] in E; [injection E as <-; reflexivity|].
  apply bind_Ok_inv in E. destruct E as (c & _ & E). apply bind_Ok_inv in E. destruct E as (code & _ & E). destruct (N.of_nat n <? code)%N.
  - destruct d; [injection E as <-; cbn [length]; lia|discriminate].
  - apply IH in E. cbn [length] in E. lia.
Qed.
Lemma cbind_inv {A B} (m : cres A) (f : A -> cres B) k k2 y : cbind m f k = Ok (k2, y) -> exists k1 x, m k = Ok (k1, x) /\ f x k1 = Ok (k2, y).
Proof. unfold cbind. destruct (m k) as [[k1 x]| | |]; cbn; try discriminate. eauto. Qed.
Lemma costs_step {A} (m : cres A) r c k k1 x : costs m r c -> m k = Ok (k1, x) -> r = Ok x /\ k1 <= k + c.
Proof. intros H E. specialize (H k). rewrite E in H. destruct r; try contradiction. destruct H as [-> H]. auto. Qed.

Lemma access_same selw t v i : sorted (sm_head (sd_samc t)) -> sb_build true v = Ok (sd_leaves t) ->
  costs (sd_access_c selw t i) (sd_access selw t i) (12 + Nat.log2_up (bv_size v / 512 + 1) + (Nat.log2_up (length (sm_head (sd_samc t)) + 1) + 2 * length (sm_head (sd_samc t)))).
Proof.
  intros S E. unfold sd_access_c, sd_access. apply costs_bind; [apply sb_select_built; exact E|]. intros node _. cbv zeta.
  change (do text <- sd_climb (sd_samc t) (N.to_nat node) (upper_depth (sm_head (sd_samc t)) (N.to_nat node)) []; match text with [] => UB | _ :: _ => Ok (removelast text) end)
   with (do ub <- Ok (length (filter (fun h => h <=? N.to_nat node) (sm_head (sd_samc t)))); do text <- sd_climb (sd_samc t) (N.to_nat node) (ub - 1) []; match text with [] => UB | _ :: _ => Ok (removelast text) end).
  apply costs_bind.
  - apply upper_bound_cost; auto; try lia.
  - intros ub U. injection U as <-. rewrite <- (Nat.add_0_r (2 * _)). apply costs_bind.
    + eapply costs_le; [apply climb_cost|]. assert (length (filter (fun h => h <=? N.to_nat node) (sm_head (sd_samc t))) <= length (sm_head (sd_samc t))); [|lia].
      generalize (sm_head (sd_samc t)). induction l as [|a l IH]; cbn [filter length]; [lia|]. destruct (a <=? N.to_nat node); cbn [length]; lia.
    + intros text _. destruct text; [apply costs_free|apply costs_ret].
Qed.
Lemma access_cost selw t v i k text : sorted (sm_head (sd_samc t)) -> sb_build true v = Ok (sd_leaves t) -> counted (sd_access_c selw t i) = Ok (k, text) ->
  k <= 12 + Nat.log2_up (bv_size v / 512 + 1) + Nat.log2_up (length (sm_head (sd_samc t)) + 1) + 2 * (length text + 1).
Proof.
  intros S E C. unfold counted, sd_access_c in C. apply cbind_inv in C. destruct C as (k1 & node & C1 & C). cbv zeta in C. apply cbind_inv in C. destruct C as (k2 & ub & C2 & C). apply cbind_inv in C. destruct C as (k3 & tx & C3 & C).
  apply (costs_step _ _ _ _ _ _ (sb_select_built selw v (sd_leaves t) i E)) in C1. destruct C1 as (_ & K1).
  assert (UC := upper_bound_cost (length (sm_head (sd_samc t))) (sm_head (sd_samc t)) (N.to_nat node) 0 (length (sm_head (sd_samc t))) S (le_n _) (le_n _) ltac:(intros; lia) ltac:(intros; lia)).
  apply (costs_step _ _ _ _ _ _ UC) in C2. destruct C2 as (_ & K2).
  apply (costs_step _ _ _ _ _ _ (climb_cost _ _ _ _)) in C3. destruct C3 as (C3 & K3). apply climb_length in C3. cbn [length] in C3.
  destruct tx as [|a tx]; [discriminate|]. unfold cret in C. assert (k3 = k) by congruence. assert (RL : removelast (a :: tx) = text) by congruence. clear C. pose proof (app_removelast_last 0%N (l := a :: tx) ltac:(discriminate)) as R. apply (f_equal (@length N)) in R. rewrite app_length in R.
  rewrite RL in R. cbn [length] in *. lia.
Qed.
Lemma dict_access selw fuel K t i : sd_build fuel K = Ok t ->
  rmap snd (counted (sd_access_c selw t i)) = sd_access selw t i /\
  forall k text, counted (sd_access_c selw t i) = Ok (k, text) ->
   k <= 12 + Nat.log2_up (length (sm_storage (sd_samc t)) / 512 + 1) + Nat.log2_up (length (sm_head (sd_samc t)) + 1) + 2 * (length text + 1).
Proof.
  intros E. unfold sd_build in E. apply bind_Ok_inv in E. destruct E as (s & Es & E). apply bind_Ok_inv in E. destruct E as (src & Ev & E). apply bind_Ok_inv in E. destruct E as (lv & Eb & E). injection E as <-.
  apply built_sorted in Es. assert (Z : bv_size src = length (sm_storage s)).
  { change (length (sm_storage s)) with (bv_size (bv_sized (length (sm_storage s)))) at 1. revert Ev. generalize (bv_sized (length (sm_storage s))). generalize (seq 1 (length (sm_storage s) - 1)).
    induction l as [|j l IH]; intros v Ev; cbn [foldM] in Ev; [injection Ev as <-; reflexivity|]. apply bind_Ok_inv in Ev. destruct Ev as (v' & E1 & Ev). apply IH in Ev. rewrite Ev.
    apply bind_Ok_inv in E1. destruct E1 as (b & _ & E1). destruct (b =? 0)%N; [|injection E1 as <-; reflexivity].
    unfold bv_set in E1. apply bind_Ok_inv in E1. destruct E1 as (r & _ & E1). apply bind_Ok_inv in E1. destruct E1 as (w & _ & E1). injection E1 as <-. reflexivity. }
  cbn [sd_samc]. rewrite <- Z. split.
  - exact (costs_same _ _ _ _ (access_same selw {| sd_samc := s; sd_leaves := lv |} src i Es Eb)).
  - intros k text. exact (access_cost selw {| sd_samc := s; sd_leaves := lv |} src i k text Es Eb).
Qed.

Lemma walk_cost : forall key ns i, costs (tr_walk_c ns i key) (tr_walk ns i key) (length key).
Proof.
  induction key as [|c key IH]; intros ns i; cbn [tr_walk_c tr_walk]; [apply costs_ret|]. cbn [length]. apply (costs_bind _ _ _ _ 1 _ _ (length key)); [apply costs_paid|].
  intros n _. cbv zeta. apply costs_if; [apply costs_ret|apply IH].
Qed.
Lemma traverse_cost A st (t : trie A) key : costs (tr_traverse_index_c st t key) (tr_traverse_index st t key) (length key + 2).
Proof.
  unfold tr_traverse_index_c, tr_traverse_index. apply costs_bind; [apply walk_cost|]. intros [i|] _; [|apply costs_ret].
  apply (costs_bind _ _ _ _ 1 _ _ 1); [apply costs_paid|]. intros n _. cbv zeta. apply costs_if; [apply costs_ret|].
  apply (costs_bind _ _ _ _ 1 _ _ 0); [apply costs_paid|]. intros m _. apply costs_ret.
Qed.
Lemma insert_step_len : forall st c st', insert_step st c = Ok st' -> length (fst st) <= length (fst st') <= S (length (fst st)).
Proof.
  intros [ns i] c st' E. unfold insert_step in E. apply bind_Ok_inv in E. destruct E as (n & _ & E). cbv zeta in E. destruct (negb (nd_target n c =? 0)); [injection E as <-; cbn [fst]; lia|].
  apply bind_Ok_inv in E. destruct E as (ns' & E1 & E). injection E as <-. cbn [fst]. rewrite app_length. cbn [length]. apply lset_inv in E1. destruct E1 as (_ & ->). rewrite upd_length. lia.
Qed.
Lemma insert_steps_len : forall key st st', foldM insert_step key st = Ok st' -> length (fst st) <= length (fst st') <= length (fst st) + length key.
Proof.
  induction key as [|c key IH]; intros st st' E; cbn [foldM] in E; [injection E as <-; cbn [length]; lia|]. apply bind_Ok_inv in E. destruct E as (s1 & E1 & E). apply insert_step_len in E1. apply IH in E. cbn [length]. lia.
Qed.
Lemma insert_len A (t t' : trie A) key item x : tr_insert t key item = Ok (t', x) -> length (tr_nodes t) <= length (tr_nodes t') <= length (tr_nodes t) + length key + 1 /\ length (tr_store t') <= length (tr_store t) + 1.
Proof.
  intros E. unfold tr_insert in E. apply bind_Ok_inv in E. destruct E as (r & E1 & E). apply bind_Ok_inv in E. destruct E as ([ns i] & E2 & E).
  apply insert_steps_len in E1. apply insert_step_len in E2. cbn [fst] in *. apply bind_Ok_inv in E. destruct E as (n & _ & E). destruct (nd_item n) as [y|].
  - apply bind_Ok_inv in E. destruct E as (sto & E3 & E). injection E as <- <-. apply lset_inv in E3. destruct E3 as (_ & ->). cbn [tr_nodes tr_store]. rewrite upd_length. lia.
  - apply bind_Ok_inv in E. destruct E as (ns' & E3 & E). injection E as <- <-. apply lset_inv in E3. destruct E3 as (_ & ->). cbn [tr_nodes tr_store]. rewrite upd_length, app_length. cbn [length]. lia.
Qed.
Lemma trie_size A (ops : list (list N * A)) t : tr_run ops = Ok t -> length (tr_nodes t) <= 1 + list_sum_nat (map (fun o => length (fst o) + 1) ops) /\ length (tr_store t) <= length ops.
Proof.
  unfold tr_run. assert (G : forall ops (t0 t : trie A), foldM (fun t kv => do r <- tr_insert t (fst kv) (snd kv); Ok (fst r)) ops t0 = Ok t ->
    length (tr_nodes t) <= length (tr_nodes t0) + list_sum_nat (map (fun o => length (fst o) + 1) ops) /\ length (tr_store t) <= length (tr_store t0) + length ops).
  { clear. induction ops as [|[k a] ops IH]; intros t0 t E; cbn [foldM] in E; [injection E as <-; cbn; lia|]. apply bind_Ok_inv in E. destruct E as (t1 & E1 & E). apply bind_Ok_inv in E1. destruct E1 as ([t2 x] & E1 & E2). injection E2 as <-.
    apply insert_len in E1. apply IH in E. cbn [map list_sum_nat fold_right fst length] in *. fold (list_sum_nat (map (fun o : list N * A => length (fst o) + 1) ops)). lia. }
  intros E. apply G in E. exact E.
Qed.

Lemma image_cost beyond o st c : costs (fo_image_c beyond o st c) (fo_image beyond o st c) 4.
Proof.
  unfold fo_image_c, fo_image. apply (costs_bind _ _ _ _ 1 _ _ 3); [apply costs_paid|]. intros a _. apply costs_if; [apply costs_ret|].
  apply (costs_bind _ _ _ _ 1 _ _ 2); [apply costs_paid|]. intros [b|] _; [|apply costs_ret].
  apply (costs_bind _ _ _ _ 1 _ _ 1); [apply costs_paid|]. intros x _. apply (costs_bind _ _ _ _ 0 _ _ 1); [apply costs_free|]. intros y _. apply costs_if; [apply costs_ret|].
  apply (costs_bind _ _ _ _ 1 _ _ 0); [apply costs_paid|]. intros k _. apply costs_ret.
Qed.
Lemma fo_accept_cost : forall w beyond o st, costs (fo_accept_from_c beyond o st w) (fo_accept_from beyond o st w) (4 * length w).
Proof.
  induction w as [|c w IH]; intros beyond o st; cbn [fo_accept_from_c fo_accept_from]; [apply costs_ret|]. apply (costs_le _ _ _ (4 + 4 * length w)); [|cbn [length]; lia].
  apply costs_bind; [apply image_cost|]. intros [s|] _; [apply IH|apply costs_ret].
Qed.

Lemma mb_get_cost U v i : costs (mb_get_c U v i) (mb_get U v i) 1.
Proof.
  unfold mb_get_c, mb_get. apply (costs_bind _ _ _ _ 1 _ _ 0); [apply costs_paid|]. intros w _. apply (costs_bind _ _ _ _ 0 _ _ 0); [apply costs_free|]. intros x _. apply costs_ret.
Qed.
Lemma mb_rank_cost U v i : costs (mb_rank_c U v i) (mb_rank U v i) 4.
Proof.
  unfold mb_rank_c, mb_rank. apply (costs_bind _ _ _ _ 1 _ _ 3); [apply mb_get_cost|]. intros ty _. apply costs_if; [apply costs_free|].
  apply (costs_bind _ _ _ _ 0 _ _ 3); [apply costs_free|]. intros tips _. apply (costs_bind _ _ _ _ 1 _ _ 2); [apply costs_paid|]. intros t _. cbv zeta.
  apply (costs_bind _ _ _ _ 1 _ _ 1); [apply costs_paid|]. intros l2 _. apply costs_if; [apply costs_ret|].
  apply (costs_bind _ _ _ _ 1 _ _ 0); [apply costs_paid|]. intros w _. apply (costs_bind _ _ _ _ 0 _ _ 0); [apply costs_free|]. intros m _. apply costs_ret.
Qed.
