(** SamcDict with assertions on. *)
From Coq Require Import List NArith ZArith Arith Bool Lia Sorted Permutation.
From Verif Require Import Base Spec Spec5 Spec10 BitUtilModel BitVectorModel BitVectorProof BitVectorProof2 SuccinctModel SuccinctProof SuccinctProof2 SuccinctProof3 LcpProof SamcModel SamcPack SamcLevel SamcTree SamcProof SamcAccept SamcDictProof SamcSet SamcSet2 SamcSet3 SamcSet4 FoDebugModel SamcDebugModel SamcDebug3.
Import ListNotations.
Local Open Scope nat_scope.
Ltac Zify.zify_post_hook ::= idtac.

Section Dict.
Variable K : list (list N).
Hypothesis HS : StronglySorted lex_lt K.
Hypothesis HB : forall k, In k K -> Forall (fun c => (0 < c < 256)%N) k.
Hypothesis HN : K <> [].
Variables (L : nat) (H : list nat) (C : list (list N)) (W : list (nat * N)) (s : samc).
Hypothesis B : Built K L H C W s.
Lemma climb_edge_d : forall p c text, edgeP K p c -> sd_climb_d s (posC C (p ++ [c])) (S (length p)) text = if (c =? 255)%N then Throw else sd_climb_d s (posC C p) (length p) (c :: text).
Proof.
  intros p c text E. pose proof (node_short K HB HN L H C W s B p (edge_node K p c E)) as SH. destruct (edge_match K HB HN L H C W s B p c E) as [A M]. pose proof (edgeP_byte K HB p c E) as Hc.
  rewrite <- (pos_snoc K HB HN L H C W s B) in A, M by exact SH. cbn [sd_climb_d]. rewrite (check_ok K HB HN L H C W s B _ (S (length p)) A) by lia. rewrite M. cbn [bind]. destruct (N.eqb_spec c 255); cbn [negb assert_that bind]; auto. rewrite (code_ok K HB HN L H C W s B) by auto. cbn [bind].
  rewrite (pos_snoc K HB HN L H C W s B) by exact SH. unfold code. set (x := nth (N.to_nat c) (nth (length p) C []) 0%N). destruct (N.ltb_spec (N.of_nat (posC C p + N.to_nat x)) x); [lia|]. f_equal. lia.
Qed.
Lemma climb_node_d : forall p text, node K p -> sd_climb_d s (posC C p) (length p) text = if existsb (N.eqb 255) p then Throw else Ok (p ++ text).
Proof.
  induction p as [|c p IH] using rev_ind; intros text Np.
  - cbn [length sd_climb_d existsb app]. replace (posC C []) with 0 by (destruct C; reflexivity). reflexivity.
  - rewrite app_length. cbn [length]. replace (length p + 1) with (S (length p)) by lia. apply node_snoc in Np; [|exact HB]. rewrite climb_edge_d by tauto. rewrite existsb_app. cbn [existsb]. rewrite orb_false_r, (N.eqb_sym 255 c). destruct (N.eqb_spec c 255) as [Q|Q]; [now rewrite orb_true_r|]. rewrite IH by (apply (edge_node K p c); tauto). rewrite orb_false_r, <- app_assoc. reflexivity.
Qed.
Theorem dict_debug : forall t, (do src <- foldM (fun v i => do b <- sm_check s i; if (b =? 0)%N then bv_set v i true else Ok v) (seq 1 (length (sm_storage s) - 1)) (bv_sized (length (sm_storage s)));
    do leaves <- sb_build true src; Ok {| sd_samc := s; sd_leaves := leaves |}) = Ok t ->
  (forall q, Forall (fun c => (c < 256)%N) q -> sd_lookup_d t q = sd_lookup t q) /\
  ((N.of_nat (length (sm_storage s)) < 2 ^ 41)%N -> forall selw, (forall x, In x (bv_words (sb_bits (sd_leaves t))) -> (x < 2 ^ 64)%N -> selw_ok selw x) ->
     forall k, In k K -> sd_access_d selw t (id C s k) = (if existsb (N.eqb 255) k then Throw else Ok k) \/ (512 <= id C s k /\ sd_access_d selw t (id C s k) = UB)).
Proof.
  intros t Et. destruct (leaves_ok s (length (sm_storage s) - 1)) as (v & E & R). { pose proof (pos_len K HB HN L H C W s B). lia. } change (map (leafb (sm_storage s) (length (sm_storage s) - 1)) (seq 0 (length (sm_storage s)))) with (lb s) in R. rewrite E in Et. cbn [bind] in Et. apply bind_Ok_inv in Et. destruct Et as (sv & Es & Et). injection Et as <-. cbn [sd_samc sd_leaves].
  assert (Bits : sb_bits sv = v). { destruct (sb_build_total v _ true (bv_reach_rep _ _ R)) as (s2 & E2 & E3 & _). congruence. }
  split.
  - intros q Q. unfold sd_lookup_d, sd_lookup. cbn [sd_samc sd_leaves]. destruct (in_dec (list_eq_dec N.eq_dec) q K) as [I|I].
    + rewrite (term_in K HB HN L H C W s B q I). cbn [bind]. rewrite Bits. fold (leaf C q). pose proof (proj2 (lb_nth K HB HN L H C W s B (leaf C q)) (ex_intro _ q (conj I eq_refl))) as Lb. assert (X : bv_get v (leaf C q) = Ok true); [|rewrite X; reflexivity].
      pose proof (leaf_facts K HB HN L H C W s B q I) as (_ & _ & _ & Ll & _). rewrite (bv_get_rep _ _ _ (bv_reach_rep _ _ R)); [f_equal; now apply nth_error_nth|]. apply nth_error_Some. rewrite Lb. discriminate.
    + destruct (sm_terminal s q) as [[i|]| | |] eqn:T; auto. exfalso.
      assert (G : sm_terminal s q = Ok None \/ sm_terminal s q = UB); [|rewrite T in G; destruct G; discriminate].
      assert (D : (exists k r, longest_key K k /\ q = k ++ 0%N :: r) \/ forall k r, longest_key K k -> q <> k ++ 0%N :: r).
      { assert (DD : forall M, (exists k r, In k M /\ q = k ++ 0%N :: r) \/ forall k r, In k M -> q <> k ++ 0%N :: r).
        { induction M as [|m M IH]; [right; intros k r []|]. destruct IH as [(k & r & I1 & I2)|IH]; [left; exists k, r; split; auto; now right|]. destruct (list_eq_dec N.eq_dec (firstn (length m + 1) q) (m ++ [0%N])) as [X|X].
          - left. exists m, (skipn (length m + 1) q). split; [now left|]. rewrite <- (firstn_skipn (length m + 1) q) at 1. rewrite X, <- app_assoc. reflexivity.
          - right. intros k r [<-|I1]; [|now apply IH]. intros ->. apply X. rewrite firstn_app. rewrite firstn_all2 by lia. replace (length m + 1 - length m) with 1 by lia. reflexivity. }
        destruct (DD (filter (fun k => forallb (fun k' => length k' <=? length k) K) K)) as [(k & r & I1 & I2)|D2].
        - left. exists k, r. split; auto. apply filter_In in I1. destruct I1 as (I1 & I3). split; auto. intros k' Ik. rewrite forallb_forall in I3. apply Nat.leb_le. auto.
        - right. intros k r (I1 & I3). apply D2. apply filter_In. split; auto. apply forallb_forall. intros k' Ik. apply Nat.leb_le. auto. }
      destruct D as [(k & r & Lk & Eq)|D]; [right; now apply (term_ub K HB HN L H C W s B q k r)|left; now apply (term_out K HB HN L H C W s B)].
  - intros Sz selw Hsel k I. rewrite Bits in Hsel. pose proof (lb_len s) as LL. assert (Sz' : (N.of_nat (length (lb s)) < 2 ^ 41)%N) by (rewrite LL; exact Sz). destruct (select_history v (lb s) R Sz') as (sv' & Es' & S1 & S2). rewrite Es in Es'. injection Es' as <-.
    destruct (Nat.le_gt_cases (id C s k / 512) (ones_before_last_block (lb s) / 512)) as [Q|Q].
    + left. destruct (S1 selw) with (k := id C s k) as (p & Ep & Hp); auto. { intros x X. apply Hsel; auto. apply (bv_reach_words v (lb s) R x X). } { rewrite (lb_count K HS HB HN L H C W s B). apply (id_lt K HS HB HN L H C W s B). exact I. }
      assert (p = leaf C k) by (apply (kth_one_unique (lb s) (id C s k)); auto; apply (id_kth K HB HN L H C W s B); exact I). subst p. unfold sd_access_d. cbn [sd_leaves sd_samc]. rewrite Ep. cbn [bind]. rewrite Nat2N.id. rewrite (b_head _ _ _ _ _ _ B). rewrite (depth_ok K HB HN L H C W s B k I).
      unfold leaf. rewrite (climb_edge_d k 0%N [] (leaf_edge K k I)). cbn [N.eqb]. rewrite (climb_node_d k _ (in_node K k I)). destruct (existsb (N.eqb 255) k); cbn [bind]; auto. destruct (k ++ [0%N]) eqn:Ek; [destruct k; discriminate|]. rewrite <- Ek. rewrite removelast_last. reflexivity.
    + right. split. { destruct (Nat.lt_ge_cases (id C s k) 512) as [Z|Z]; auto. rewrite (Nat.div_small _ _ Z) in Q. lia. }
      unfold sd_access_d. cbn [sd_leaves]. rewrite S2; auto. intros Z. pose proof (pos_len K HB HN L H C W s B). apply (f_equal (@length bool)) in Z. rewrite LL in Z. cbn [length] in Z. lia.
Qed.
End Dict.

Theorem dict_debug_any : forall K, K <> [] -> (forall k, In k K -> bytes k) -> forall fuel, (forall k, In k K -> length (c_string k) < fuel) -> let D := nodup (list_eq_dec N.eq_dec) (map c_string K) in
  exists t id, sd_build fuel K = Ok t /\ Permutation (map id D) (seq 0 (length D)) /\
    (scattered K -> sd_build_d fuel K = Throw) /\ (~ scattered K -> sd_build_d fuel K = Ok t) /\
    (forall q, bytes q -> sd_lookup_d t q = sd_lookup t q) /\ (forall q, In q D -> sd_lookup t q = Ok (Some (N.of_nat (id q)))) /\
    ((N.of_nat (length (sm_storage (sd_samc t))) < 2 ^ 41)%N -> forall q, In q D -> id q < 512 -> sd_access (sel_bmi2 ctz64) t (id q) = Ok q /\ (In 255%N q -> sd_access_d (sel_bmi2 ctz64) t (id q) = Throw) /\ (~ In 255%N q -> sd_access_d (sel_bmi2 ctz64) t (id q) = Ok q)).
Proof.
  intros K NK HB fuel HF D. set (W := sorted_set (map c_string K)).
  assert (HFW : forall k, In k W -> length k < fuel). { intros w I. apply (W_in K) in I. apply in_map_iff in I. destruct I as (k & <- & I). auto. }
  destruct (build_ok W (sorted_set_sorted _) (W_nz K HB) (W_ne K NK HB) false fuel HFW) as (s & L & H & C & W' & E & B). destruct (dict_ok W (sorted_set_sorted _) (W_nz K HB) (W_ne K NK HB) L H C W' s B) as (t & Et & Est & P1 & P2 & P3 & P4).
  destruct (dict_debug W (sorted_set_sorted _) (W_nz K HB) (W_ne K NK HB) L H C W' s B t Et) as (D1 & D2).
  assert (DW : forall q, In q D <-> In q W) by (intros q; unfold D; rewrite nodup_In; symmetry; apply (W_in K)).
  assert (Eb : sm_build false fuel K = Ok s) by (rewrite (W_build K HB); exact E).
  exists t, (id C s). split; [unfold sd_build; rewrite Eb; cbn [bind]; exact Et|]. split.
  { pose proof (W_perm K) as WP. fold D in WP. fold W in WP. rewrite <- (Permutation_length WP). rewrite <- (id_perm W (sorted_set_sorted _) (W_nz K HB) (W_ne K NK HB) L H C W' s B). apply Permutation_map. now apply Permutation_sym. }
  destruct (samc_debug K NK HB false fuel HF) as (s' & Es' & S1 & S2). assert (s' = s) by congruence. subst s'.
  split; [intros X; unfold sd_build_d; rewrite (S1 X); reflexivity|]. split; [intros X; unfold sd_build_d; rewrite (S2 X); cbn [bind]; exact Et|]. split; [exact D1|]. split; [intros q I; apply P1; now apply DW|].
  intros Sz q I Lq. rewrite Est in Sz. apply DW in I. assert (SO : forall x, In x (bv_words (sb_bits (sd_leaves t))) -> (x < 2 ^ 64)%N -> selw_ok (sel_bmi2 ctz64) x) by (intros x _ X; now apply selw_bmi2).
  split; [destruct (P4 Sz _ SO q I) as [X|(X & _)]; [auto|lia]|]. destruct (D2 Sz _ SO q I) as [X|(X & _)]; [|lia]. rewrite X. destruct (existsb (N.eqb 255) q) eqn:Q.
  - split; auto. intros Y. exfalso. apply Y. apply existsb_exists in Q. destruct Q as (x & I1 & I2). apply N.eqb_eq in I2. congruence.
  - split; auto. intros Y. exfalso. assert (Z : existsb (N.eqb 255) q = true) by (apply existsb_exists; exists 255%N; split; auto). congruence.
Qed.
