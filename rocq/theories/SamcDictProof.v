(** SamcDict: ids of the keys and the way back. *)
From Coq Require Import List NArith ZArith Arith Bool Lia Sorted Permutation.
From Verif Require Import Base Spec Spec5 LcpProof BitUtilModel BitVectorModel BitVectorProof2 SuccinctModel SuccinctProof SuccinctProof2 SuccinctProof3 SamcModel SamcPack SamcLevel SamcTree SamcProof SamcAccept.
Import ListNotations.
Local Open Scope nat_scope.

Lemma bits_run_app : forall a b l, bits_run l (a ++ b) = match bits_run l a with Some l' => bits_run l' b | None => None end.
Proof. induction a as [|o a IH]; intros b l; [reflexivity|]. cbn [app bits_run]. destruct (bits_step l o); auto. Qed.
Lemma reach_set : forall v l i b, bv_reach v l -> i < length l -> exists v', bv_set v i b = Ok v' /\ bv_reach v' (firstn i l ++ b :: skipn (S i) l).
Proof.
  intros v l i b R Hi. pose proof (bv_reach_rep v l R) as Rp. destruct (bv_set_rep v l i b Rp Hi) as (v' & E & _). exists v'. split; auto. destruct R as (s & l0 & ops & A1 & A2 & A3).
  exists s, l0, (ops ++ [BVWrite i b]). split; auto. split.
  - rewrite bits_run_app, A2. cbn [bits_run bits_step]. destruct (Nat.ltb_spec i (length l)); [reflexivity|lia].
  - destruct s as [v0| | |]; cbn [bind] in *; try discriminate. unfold bv_run in *. rewrite foldM_app, A3. cbn [bind foldM bv_step]. rewrite E. reflexivity.
Qed.
Lemma nth_map_seq : forall (A : Type) (f : nat -> A) n i d, i < n -> nth i (map f (seq 0 n)) d = f i.
Proof. intros A f n i d H. rewrite (nth_indep _ d (f 0)) by (rewrite map_length, seq_length; exact H). rewrite map_nth, seq_nth by exact H. reflexivity. Qed.
Definition leafb (st : list N) (m i : nat) : bool := (1 <=? i) && (i <=? m) && (nth i st 0 =? 0)%N.
Lemma leaves_ok : forall s m, m < length (sm_storage s) ->
  exists v, foldM (fun v i => do b <- sm_check s i; if (b =? 0)%N then bv_set v i true else Ok v) (seq 1 m) (bv_sized (length (sm_storage s))) = Ok v /\
  bv_reach v (map (leafb (sm_storage s) m) (seq 0 (length (sm_storage s)))).
Proof.
  intros s. induction m as [|m IH]; intros Hm.
  - exists (bv_sized (length (sm_storage s))). split; [reflexivity|]. exists (Ok (bv_sized (length (sm_storage s)))), (repeat false (length (sm_storage s))), []. split; [constructor|]. split; [|reflexivity]. cbn [bits_run]. f_equal.
    apply nth_ext with false false; [rewrite map_length, seq_length, repeat_length; reflexivity|]. intros i Hi. rewrite repeat_length in Hi. rewrite nth_map_seq by exact Hi. rewrite nth_repeat. unfold leafb. destruct i; reflexivity.
  - destruct IH as (v & E & R); [lia|]. rewrite seq_S. rewrite foldM_app, E. cbn [bind foldM]. cbn [Nat.add]. unfold sm_check. rewrite (lget_nth _ _ (S m) 0%N) by exact Hm. cbn [bind].
    set (n := length (sm_storage s)) in *. destruct (N.eqb_spec (nth (S m) (sm_storage s) 0%N) 0) as [Z|Z].
    + destruct (reach_set v _ (S m) true R) as (v' & E' & R'). { rewrite map_length, seq_length. exact Hm. } rewrite E'. cbn [bind]. exists v'. split; [reflexivity|].
      replace (map (leafb (sm_storage s) (S m)) (seq 0 n)) with (firstn (S m) (map (leafb (sm_storage s) m) (seq 0 n)) ++ true :: skipn (S (S m)) (map (leafb (sm_storage s) m) (seq 0 n))); [exact R'|].
      apply nth_ext with false false; [rewrite set_length by (rewrite map_length, seq_length; exact Hm); rewrite !map_length; reflexivity|]. intros i Hi. rewrite set_length in Hi by (rewrite map_length, seq_length; exact Hm). rewrite map_length, seq_length in Hi.
      rewrite nth_set by (rewrite map_length, seq_length; exact Hm). rewrite !nth_map_seq by exact Hi. unfold leafb. destruct (Nat.eqb_spec i (S m)) as [->|Q].
      * rewrite Z. rewrite Nat.leb_refl. reflexivity.
      * f_equal. f_equal. apply eq_true_iff_eq. rewrite !Nat.leb_le. lia.
    + exists v. split; [reflexivity|]. replace (map (leafb (sm_storage s) (S m)) (seq 0 n)) with (map (leafb (sm_storage s) m) (seq 0 n)); [exact R|]. apply map_ext. intros i. unfold leafb. destruct (Nat.eq_dec i (S m)) as [->|Q].
      * destruct (N.eqb_spec (nth (S m) (sm_storage s) 0%N) 0); [congruence|]. rewrite !andb_false_r. reflexivity.
      * f_equal. f_equal. apply eq_true_iff_eq. rewrite !Nat.leb_le. lia.
Qed.
Lemma count_filter : forall (f : nat -> bool) l, count_true (map f l) = length (filter f l).
Proof. intros f l. unfold count_true. induction l as [|x l IH]; [reflexivity|]. cbn [map filter]. destruct (f x); cbn [length]; auto. Qed.
Lemma nth_skipn_nat : forall (l : list nat) i j d, nth j (skipn i l) d = nth (i + j) l d.
Proof. induction l as [|x l IH]; intros [|i] j d; cbn [skipn Nat.add]; try reflexivity; [destruct j; reflexivity|]. rewrite IH. reflexivity. Qed.
Lemma filter_le_count : forall H x d, d < length H -> (forall i j, i < j -> j < length H -> nth i H 0 < nth j H 0) -> nth d H 0 <= x -> (S d < length H -> x < nth (S d) H 0) -> length (filter (fun h => h <=? x) H) = S d.
Proof.
  intros H x d Hd Inc A B. rewrite <- (firstn_skipn (S d) H). rewrite filter_app, app_length. rewrite (filter_all _ _ (firstn (S d) H)), filter_nil.
  - rewrite firstn_length. cbn [length]. lia.
  - intros h Hh. destruct (In_nth _ _ 0 Hh) as (i & Hi & <-). rewrite skipn_length in Hi. rewrite nth_skipn_nat. apply Nat.leb_gt. destruct i; [rewrite Nat.add_0_r; apply B; lia|]. pose proof (Inc (S d) (S d + S i) ltac:(lia) ltac:(lia)). lia.
  - intros h Hh. destruct (In_nth _ _ 0 Hh) as (i & Hi & <-). rewrite firstn_length in Hi. rewrite nth_firstn_lt by lia. apply Nat.leb_le. destruct (Nat.eq_dec i d) as [->|Q]; [exact A|]. pose proof (Inc i d ltac:(lia) Hd). lia.
Qed.

Section Dict.
Variable K : list (list N).
Hypothesis HS : StronglySorted lex_lt K.
Hypothesis HB : forall k, In k K -> Forall (fun c => (0 < c < 256)%N) k.
Hypothesis HN : K <> [].
Notation node := (node K).
Notation edgeP := (edgeP K).
Variables (L : nat) (H : list nat) (C : list (list N)) (W : list (nat * N)) (s : samc).
Hypothesis B : Built K L H C W s.
Let LV := b_lev _ _ _ _ _ _ B.
Let n := length (sm_storage s).
Let st := sm_storage s.
Definition leaf (k : list N) : nat := posC C (k ++ [0%N]).
Lemma pos_len : 0 < n.
Proof using B HB HN. unfold n. rewrite (b_len _ _ _ _ _ _ B). destruct (l_h _ _ _ _ _ _ LV). pose proof (l_inc _ _ _ _ _ _ LV L ltac:(lia)). lia. Qed.
Lemma leaf_edge : forall k, In k K -> edgeP k 0%N.
Proof. intros k I. left. auto. Qed.
Lemma leaf_facts : forall k, In k K -> length k < L /\ alive H (leaf k) (S (length k)) /\ nth (leaf k) st 0%N = 0%N /\ leaf k < n /\ 1 <= leaf k.
Proof using B HB HN.
  intros k I. pose proof (in_node K k I) as Nk. pose proof (node_short K HB HN L H C W s B k Nk) as SH. destruct (edge_match K HB HN L H C W s B k 0%N (leaf_edge k I)) as [A M].
  rewrite <- (pos_snoc K HB HN L H C W s B) in A, M by exact SH. fold (leaf k) in A, M. split; auto. split; auto. split; auto.
  pose proof (heads_mono K HB HN L H C W s B 1 (S (length k)) ltac:(lia) ltac:(lia)) as H1. pose proof (heads_mono K HB HN L H C W s B (S (S (length k))) (S L) ltac:(lia) ltac:(lia)) as H2.
  destruct A as [A1 A2]. destruct (l_h _ _ _ _ _ _ LV). unfold n. rewrite (b_len _ _ _ _ _ _ B). lia.
Qed.
Lemma leaf_inj : forall k k', In k K -> In k' K -> leaf k = leaf k' -> k = k'.
Proof using B HB HN.
  intros k k' I I' E. destruct (leaf_facts k I) as (S1 & A1 & _). destruct (leaf_facts k' I') as (S2 & A2 & _). rewrite E in A1.
  assert (Q : S (length k) = S (length k')) by (apply (alive_level K HB HN L H C W s B (leaf k')); auto; lia). unfold leaf in E. rewrite !(pos_snoc K HB HN L H C W s B) in E by lia. injection Q as Q. rewrite Q in E.
  apply (l_inj _ _ _ _ _ _ LV); auto; try lia; apply in_node; auto.
Qed.
Lemma leaf_only : forall x, 1 <= x -> x < n -> nth x st 0%N = 0%N -> exists k, In k K /\ x = leaf k.
Proof using B HB HN.
  intros x X1 X2 Z. destruct (in_dec Nat.eq_dec x (map fst W)) as [I|I].
  - apply in_map_iff in I. destruct I as ([y c] & Y & I). cbn [fst] in Y. subst y. pose proof (b_wr _ _ _ _ _ _ B x c I) as E. fold st in E. rewrite Z in E. subst c. apply (l_wr _ _ _ _ _ _ LV) in I. destruct I as [[I _]|(p & _ & P2 & P3)]; [lia|].
    exists p. split; [|exact P3]. destruct P2 as [[_ P2]|[P2 _]]; congruence.
  - exfalso. pose proof (b_free _ _ _ _ _ _ B x) as F. fold st in F. rewrite Z in F. assert (0%N = 255%N); [|discriminate]. apply F; auto. unfold n in X2. rewrite (b_len _ _ _ _ _ _ B) in X2. exact X2.
Qed.
Definition lb : list bool := map (leafb st (n - 1)) (seq 0 n).
Lemma lb_len : length lb = n.
Proof. unfold lb. rewrite map_length. apply seq_length. Qed.
Lemma leafb_spec : forall x, x < n -> (leafb st (n - 1) x = true <-> exists k, In k K /\ x = leaf k).
Proof using B HB HN.
  intros x X. unfold leafb. rewrite !andb_true_iff, !Nat.leb_le, N.eqb_eq. split.
  - intros [[A _] Z]. apply leaf_only; auto.
  - intros (k & I & ->). destruct (leaf_facts k I) as (_ & _ & Z & A & A'). split; auto. lia.
Qed.
Lemma lb_nth : forall x, nth_error lb x = Some true <-> exists k, In k K /\ x = leaf k.
Proof using B HB HN.
  intros x. destruct (Nat.lt_ge_cases x n) as [X|X].
  - rewrite <- leafb_spec by exact X. rewrite (nth_error_nth' lb false) by (rewrite lb_len; exact X). unfold lb. rewrite nth_map_seq by exact X. split; congruence.
  - split. { intros E. assert (Y : nth_error lb x <> None) by congruence. apply nth_error_Some in Y. rewrite lb_len in Y. lia. } intros (k & I & ->). destruct (leaf_facts k I) as (_ & _ & _ & A & _). lia.
Qed.
Lemma NoDup_K : NoDup K.
Proof using HS.
  clear -HS. induction HS as [|k K' S IH F]; constructor; auto. intros X. rewrite Forall_forall in F. apply F in X. exact (lex_lt_irrefl _ X).
Qed.
Lemma lb_count : count_true lb = length K.
Proof using B HB HN HS.
  unfold lb. rewrite count_filter. rewrite <- (map_length leaf K). apply Permutation_length. apply NoDup_Permutation.
  - apply NoDup_filter. apply seq_NoDup.
  - apply NoDup_map_in; [|exact NoDup_K]. intros; apply leaf_inj; auto.
  - intros x. rewrite filter_In, in_seq, in_map_iff. split.
    + intros [[_ X] Y]. apply leafb_spec in Y; [|lia]. destruct Y as (k & I & ->). eauto.
    + intros (k & <- & I). destruct (leaf_facts k I) as (_ & _ & _ & A & _). split; [lia|]. apply leafb_spec; auto. eauto.
Qed.
Definition id (k : list N) : nat := count_true (firstn (leaf k) lb).
Lemma id_kth : forall k, In k K -> is_kth_one lb (id k) (leaf k).
Proof using B HB HN. intros k I. split; [apply lb_nth; eauto|reflexivity]. Qed.
Lemma id_lt : forall k, In k K -> id k < length K.
Proof using B HB HN HS.
  intros k I. rewrite <- lb_count. unfold id. pose proof (proj1 (id_kth k I)) as E. apply nth_error_split in E. destruct E as (a & b & E & La). rewrite E. rewrite <- La. rewrite firstn_app, firstn_all, Nat.sub_diag. cbn [firstn]. rewrite app_nil_r.
  unfold count_true. rewrite filter_app, app_length. cbn [filter length]. lia.
Qed.
Lemma id_inj : forall k k', In k K -> In k' K -> id k = id k' -> k = k'.
Proof using B HB HN. intros k k' I I' E. apply leaf_inj; auto. apply (kth_one_unique lb (id k)); [apply id_kth; auto|]. rewrite E. apply id_kth. auto. Qed.
Lemma id_perm : Permutation (map id K) (seq 0 (length K)).
Proof using B HB HN HS.
  apply NoDup_Permutation_bis.
  - apply NoDup_map_in; [|exact NoDup_K]. intros; apply id_inj; auto.
  - rewrite map_length, seq_length. lia.
  - intros x X. apply in_map_iff in X. destruct X as (k & <- & I). apply in_seq. pose proof (id_lt k I). lia.
Qed.
Lemma depth_ok : forall k, In k K -> upper_depth H (leaf k) = S (length k).
Proof using B HB HN.
  intros k I. destruct (leaf_facts k I) as (S1 & [A1 A2] & _). assert (LH := l_len _ _ _ _ _ _ LV). unfold upper_depth. rewrite (filter_le_count H (leaf k) (S (length k))); [lia|lia| |exact A1|intros _; exact A2].
  intros i j Hij Hj. pose proof (l_inc _ _ _ _ _ _ LV i ltac:(lia)). pose proof (heads_mono K HB HN L H C W s B (S i) j ltac:(lia) ltac:(lia)). lia.
Qed.
Lemma climb_edge : forall p c text, edgeP p c -> sd_climb s (posC C (p ++ [c])) (S (length p)) text = sd_climb s (posC C p) (length p) (c :: text).
Proof using B HB HN.
  intros p c text E. pose proof (node_short K HB HN L H C W s B p (edge_node K p c E)) as SH. destruct (edge_match K HB HN L H C W s B p c E) as [A M]. pose proof (edgeP_byte K HB p c E) as Hc.
  rewrite <- (pos_snoc K HB HN L H C W s B) in A, M by exact SH. cbn [sd_climb]. rewrite (check_ok K HB HN L H C W s B _ (S (length p)) A) by lia. rewrite M. cbn [bind]. rewrite (code_ok K HB HN L H C W s B) by auto. cbn [bind].
  rewrite (pos_snoc K HB HN L H C W s B) by exact SH. unfold code. set (x := nth (N.to_nat c) (nth (length p) C []) 0%N). destruct (N.ltb_spec (N.of_nat (posC C p + N.to_nat x)) x); [lia|]. f_equal. lia.
Qed.
Lemma climb_node : forall p text, node p -> sd_climb s (posC C p) (length p) text = Ok (p ++ text).
Proof using B HB HN.
  induction p as [|c p IH] using rev_ind; intros text Np; [reflexivity|]. rewrite app_length. cbn [length]. replace (length p + 1) with (S (length p)) by lia. apply node_snoc in Np; [|exact HB]. rewrite climb_edge by tauto. rewrite IH by (apply (edge_node K p c); tauto). rewrite <- app_assoc. reflexivity.
Qed.

Theorem dict_ok : exists t, (do src <- foldM (fun v i => do b <- sm_check s i; if (b =? 0)%N then bv_set v i true else Ok v) (seq 1 (length (sm_storage s) - 1)) (bv_sized (length (sm_storage s)));
    do leaves <- sb_build true src; Ok {| sd_samc := s; sd_leaves := leaves |}) = Ok t /\ sd_samc t = s /\
  (forall k, In k K -> sd_lookup t k = Ok (Some (N.of_nat (id k)))) /\
  (forall q, sm_terminal s q = Ok None -> sd_lookup t q = Ok None) /\ (forall q, sm_terminal s q = UB -> sd_lookup t q = UB) /\
  ((N.of_nat (length (sm_storage s)) < 2 ^ 41)%N -> forall selw, (forall x, In x (bv_words (sb_bits (sd_leaves t))) -> (x < 2 ^ 64)%N -> selw_ok selw x) ->
     forall k, In k K -> sd_access selw t (id k) = Ok k \/ (512 <= id k /\ sd_access selw t (id k) = UB)).
Proof using B HB HN HS.
  destruct (leaves_ok s (n - 1)) as (v & E & R). { pose proof pos_len. unfold n in *. lia. } fold n in E, R |- *. fold st in R. fold lb in R. rewrite E. cbn [bind].
  destruct (rank_history true v lb R) as (sv & Es & _ & _ & Rk). rewrite Es. cbn [bind]. eexists. split; [reflexivity|]. split; [reflexivity|]. cbn [sd_samc sd_leaves].
  assert (Bits : sb_bits sv = v). { destruct (sb_build_total v lb true (bv_reach_rep _ _ R)) as (s2 & E2 & E3 & _). congruence. }
  split; [|split; [|split]].
  - intros k I. unfold sd_lookup. cbn [sd_samc sd_leaves]. rewrite (term_in K HB HN L H C W s B k I). cbn [bind]. fold (leaf k). destruct (leaf_facts k I) as (_ & _ & _ & A & _). destruct (Rk (leaf k)) as [Rl _]; [rewrite lb_len; lia|left; rewrite lb_len; exact A|]. rewrite Rl. reflexivity.
  - intros q Q. unfold sd_lookup. cbn [sd_samc]. rewrite Q. reflexivity.
  - intros q Q. unfold sd_lookup. cbn [sd_samc]. rewrite Q. reflexivity.
  - intros Sz selw Hsel k I. rewrite Bits in Hsel. assert (Sz' : (N.of_nat (length lb) < 2 ^ 41)%N) by (rewrite lb_len; exact Sz). destruct (select_history v lb R Sz') as (sv' & Es' & S1 & S2). rewrite Es in Es'. injection Es' as <-.
    destruct (Nat.le_gt_cases (id k / 512) (ones_before_last_block lb / 512)) as [Q|Q].
    + left. destruct (S1 selw) with (k := id k) as (p & Ep & Hp); auto. { intros x X. apply Hsel; auto. apply (bv_reach_words v lb R x X). } { rewrite lb_count. apply id_lt. exact I. }
      assert (p = leaf k) by (apply (kth_one_unique lb (id k)); auto; apply id_kth; exact I). subst p. unfold sd_access. cbn [sd_leaves sd_samc]. rewrite Ep. cbn [bind]. rewrite Nat2N.id. rewrite (b_head _ _ _ _ _ _ B). rewrite depth_ok by exact I.
      unfold leaf. rewrite (climb_edge k 0%N [] (leaf_edge k I)). rewrite (climb_node k _ (in_node K k I)). cbn [bind]. destruct (k ++ [0%N]) eqn:Ek; [destruct k; discriminate|]. rewrite <- Ek. rewrite removelast_last. reflexivity.
    + right. split. { destruct (Nat.lt_ge_cases (id k) 512) as [Z|Z]; auto. rewrite (Nat.div_small _ _ Z) in Q. lia. }
      unfold sd_access. cbn [sd_leaves]. rewrite S2; auto. intros Z. pose proof pos_len. apply (f_equal (@length bool)) in Z. rewrite lb_len in Z. cbn [length] in Z. lia.
Qed.
End Dict.

Theorem samc_accept : forall legacy fuel K, K <> [] -> StronglySorted lex_lt K -> (forall k, In k K -> Forall (fun c => (0 < c < 256)%N) k) -> (forall k, In k K -> length k < fuel) ->
  exists s, sm_build legacy fuel K = Ok s /\ (forall k, In k K -> sm_accept s k = Ok true) /\
  (forall q, Forall (fun c => (c < 256)%N) q -> ~ In q K -> (forall k r, longest_key K k -> q <> k ++ 0%N :: r) -> sm_accept s q = Ok false) /\
  (forall k r, Forall (fun c => (c < 256)%N) (k ++ 0%N :: r) -> longest_key K k -> sm_accept s (k ++ 0%N :: r) = UB).
Proof.
  intros legacy fuel K HN HS HB HF. destruct (build_ok K HS HB HN legacy fuel HF) as (s & L & H & C & W & E & B). exists s. split; auto. unfold sm_accept. split; [|split].
  - intros k I. rewrite (term_in K HB HN L H C W s B k I). reflexivity.
  - intros q F I Q. rewrite (term_out K HB HN L H C W s B q F I Q). reflexivity.
  - intros k r F Lk. rewrite (term_ub K HB HN L H C W s B _ k r F Lk eq_refl). reflexivity.
Qed.
Theorem samc_dict_ok : forall fuel K, K <> [] -> StronglySorted lex_lt K -> (forall k, In k K -> Forall (fun c => (0 < c < 256)%N) k) -> (forall k, In k K -> length k < fuel) ->
  exists t id, sd_build fuel K = Ok t /\ Permutation (map id K) (seq 0 (length K)) /\ (forall k, In k K -> sd_lookup t k = Ok (Some (N.of_nat (id k)))) /\
  (forall q, Forall (fun c => (c < 256)%N) q -> ~ In q K -> (forall k r, longest_key K k -> q <> k ++ 0%N :: r) -> sd_lookup t q = Ok None) /\
  ((N.of_nat (length (sm_storage (sd_samc t))) < 2 ^ 41)%N -> forall selw, (forall x, In x (bv_words (sb_bits (sd_leaves t))) -> (x < 2 ^ 64)%N -> selw_ok selw x) ->
     forall k, In k K -> sd_access selw t (id k) = Ok k \/ (512 <= id k /\ sd_access selw t (id k) = UB)).
Proof.
  intros fuel K HN HS HB HF. destruct (build_ok K HS HB HN false fuel HF) as (s & L & H & C & W & E & B). destruct (dict_ok K HS HB HN L H C W s B) as (t & Et & Es & P1 & P2 & P3 & P4).
  exists t, (id C s). unfold sd_build. rewrite E. cbn [bind]. split; [exact Et|]. split; [apply (id_perm K HS HB HN L H C W s B)|]. split; [exact P1|]. split.
  - intros q F I Q. apply P2. apply (term_out K HB HN L H C W s B q F I Q).
  - rewrite Es. exact P4.
Qed.

(** deciding the hypotheses on a key list *)
Fixpoint lex_ltb (a b : list N) : bool :=
  match a, b with _, [] => false | [], _ :: _ => true | x :: a, y :: b => (x <? y)%N || ((x =? y)%N && lex_ltb a b) end.
Fixpoint sortedb (l : list (list N)) : bool := match l with a :: r => match r with b :: _ => lex_ltb a b && sortedb r | [] => true end | [] => true end.
Lemma lex_ltb_ok : forall a b, lex_ltb a b = true -> lex_lt a b.
Proof. induction a as [|x a IH]; intros [|y b] H; cbn [lex_ltb lex_lt] in *; auto; try discriminate. apply orb_true_iff in H. rewrite andb_true_iff, N.ltb_lt, N.eqb_eq in H. destruct H as [H|[H1 H2]]; auto. Qed.
Lemma sortedb_ok : forall l, sortedb l = true -> StronglySorted lex_lt l.
Proof.
  intros l H. apply Sorted_StronglySorted; [intros a b c; apply lex_lt_trans|]. induction l as [|a l IH]; [constructor|]. cbn [sortedb] in H. destruct l as [|b l]; [repeat constructor|]. apply andb_true_iff in H. destruct H as [H1 H2]. constructor; [apply IH; exact H2|]. constructor. apply lex_ltb_ok. exact H1.
Qed.
