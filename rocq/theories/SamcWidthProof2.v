(** Samc and SamcDict with a code_type of one, two, four or eight bytes. *)
From Coq Require Import List NArith ZArith Arith Bool Lia Sorted Permutation.
From Verif Require Import Base Spec Spec5 BitUtilModel BitVectorModel SuccinctModel StreamModel SamcModel SamcWidthModel StringStreamModel StringStreamProof SamcPack SamcLevel SamcTree SamcProof SamcAccept SamcDictProof SamcWidthProof.
Import ListNotations.
Local Open Scope nat_scope.

Section K.
Variable K : list (list N).
Hypothesis HS : StronglySorted lex_lt K.
Hypothesis HB : forall k, In k K -> Forall (fun c => (0 < c < 256)%N) k.
Hypothesis HN : K <> [].
Section S.
Variables (L : nat) (H : list nat) (C : list (list N)) (W : list (nat * N)) (s : samc).
Hypothesis BU : Built K L H C W s.
Let LV := b_lev _ _ _ _ _ _ BU.
Lemma heads_le : forall i, i <= S L -> i <= nth i H 0.
Proof using BU.
  induction i as [|i IH]; intros Hi; [lia|]. pose proof (l_inc _ _ _ _ _ _ LV i ltac:(lia)). specialize (IH ltac:(lia)). lia.
Qed.
Lemma built_fits : forall cw, (N.of_nat (length (sm_storage s)) < 2 ^ 63)%N -> (N.of_nat (length (sm_storage s)) < 2 ^ N.of_nat (8 * cw))%N -> Forall (Forall (fun c => (c < 2 ^ N.of_nat (8 * cw))%N)) C -> samc_fits cw s.
Proof using BU HB HN.
  intros cw S1 S2 FC. unfold samc_fits, size_fits. assert (LH := l_len _ _ _ _ _ _ LV). assert (LC := l_clen _ _ _ _ _ _ LV). rewrite (b_len _ _ _ _ _ _ BU) in *. pose proof (heads_le (S L) (le_n _)) as HL.
  rewrite (b_codes _ _ _ _ _ _ BU), (b_head _ _ _ _ _ _ BU). split; [lia|]. split; [|split; [lia|split; [|split; [lia|]]]].
  - apply Forall_forall. intros b Hb. destruct (In_nth _ _ 0%N Hb) as (x & Hx & <-). rewrite (b_len _ _ _ _ _ _ BU) in Hx. destruct (in_dec Nat.eq_dec x (map fst W)) as [I|I]; [|rewrite (b_free _ _ _ _ _ _ BU x Hx I); lia].
    apply in_map_iff in I. destruct I as ([y c] & Y & I). cbn [fst] in Y. subst y. rewrite (b_wr _ _ _ _ _ _ BU x c I). apply (l_wr _ _ _ _ _ _ LV) in I. destruct I as [[_ ->]|(p & _ & P & _)]; [lia|]. pose proof (edgeP_byte K HB p c P). lia.
  - apply Forall_forall. intros row Hr. split; [|rewrite Forall_forall in FC; apply FC; exact Hr]. destruct (In_nth _ _ [] Hr) as (i & Hi & <-). apply (l_rows _ _ _ _ _ _ LV). lia.
  - apply Forall_forall. intros h Hh. destruct (In_nth _ _ 0 Hh) as (i & Hi & <-). pose proof (heads_mono K HB HN L H C W s BU i (S L) ltac:(lia) (le_n _)). lia.
Qed.
(** as many elements as keys and letters of a key *)
Lemma built_large : length K < length (sm_storage s) /\ forall k, In k K -> length k + 1 < length (sm_storage s).
Proof using BU HB HN HS.
  split.
  - assert (X : length (map (fun k => posC C (k ++ [0%N])) K) <= length (seq 1 (length (sm_storage s) - 1))).
    { apply NoDup_incl_length.
      - apply NoDup_map_in; [|apply (NoDup_K K HS)]. intros a b Ia Ib E. exact (leaf_inj K HB HN L H C W s BU a b Ia Ib E).
      - intros x Hx. apply in_map_iff in Hx. destruct Hx as (k & <- & Hk). destruct (leaf_facts K HB HN L H C W s BU k Hk) as (_ & _ & _ & A & B). unfold leaf in A, B. apply in_seq. lia. }
    rewrite map_length, seq_length in X. pose proof (pos_len K HB HN L H C W s BU). lia.
  - intros k Hk. pose proof (in_node K k Hk) as Nk. pose proof (node_short K HB HN L H C W s BU k Nk). pose proof (heads_le (S L) (le_n _)). rewrite (b_len _ _ _ _ _ _ BU). lia.
Qed.
End S.
End K.

Theorem width_accept : forall cw legacy fuel K, In cw [1; 2; 4; 8] -> K <> [] -> StronglySorted lex_lt K -> (forall k, In k K -> Forall (fun c => (0 < c < 256)%N) k) -> (forall k, In k K -> length k < fuel) ->
  exists s, sm_build legacy fuel K = Ok s /\ ((N.of_nat (length (sm_storage s)) < 2 ^ 63)%N ->
    ((exists s', sm_build_w cw legacy fuel K = Ok s') <-> (N.of_nat (length (sm_storage s)) < 2 ^ N.of_nat (8 * cw))%N) /\
    forall s', sm_build_w cw legacy fuel K = Ok s' -> s' = s /\ (forall q, Forall (fun c => (0 < c < 256)%N) q -> exists b, sm_accept s' q = Ok b /\ (b = true <-> In q K)) /\
      (forall rest, samc_read cw (samc_write cw s' ++ rest) = Ok (s', rest)) /\
      (N.of_nat (length K) < 2 ^ N.of_nat (8 * cw))%N /\ forall k, In k K -> (N.of_nat (length k + 1) < 2 ^ N.of_nat (8 * cw))%N).
Proof.
  intros cw legacy fuel K Hcw HN HS HB HF. destruct (width_ok cw legacy fuel K Hcw HN HS HB HF) as (s & L & H & C & W & BS & BU & X). exists s. split; auto. intros Sz. destruct (X Sz) as [X1 X2].
  destruct (N.lt_ge_cases (N.of_nat (length (sm_storage s))) (2 ^ N.of_nat (8 * cw))) as [F|F].
  - destruct (X1 F) as [Y1 Y2]. split; [split; [auto|intros _; exists s; exact Y1]|]. intros s' E. rewrite Y1 in E. injection E as <-. split; auto. split.
    + intros q Q. destruct (samc_accept legacy fuel K HN HS HB HF) as (s1 & E1 & A & R & _). rewrite BS in E1. injection E1 as <-.
      destruct (in_dec (list_eq_dec N.eq_dec) q K) as [I|I]; [exists true; split; [auto|tauto]|]. exists false. split; [|split; [discriminate|contradiction]]. apply R; auto.
      * eapply Forall_impl; [|exact Q]. cbv beta. intros. lia.
      * intros k r _ E'. rewrite E' in Q. apply Forall_app in Q. destruct Q as [_ Q]. inversion Q. lia.
    + split; [intros rest; exact (rt_samc cw s (built_fits K HB HN L H C W s BU cw Sz F Y2) rest)|]. destruct (built_large K HS HB HN L H C W s BU) as [Z1 Z2]. split; [lia|]. intros k Hk. specialize (Z2 k Hk). lia.
  - split; [split; [intros (s' & E); exfalso; apply (X2 F s' E)|intros Q; lia]|]. intros s' E. exfalso. apply (X2 F s' E).
Qed.
(** with BMI2 *)
Theorem width_dict : forall cw fuel K t, In cw [1; 2; 4; 8] -> K <> [] -> StronglySorted lex_lt K -> (forall k, In k K -> Forall (fun c => (0 < c < 256)%N) k) -> (forall k, In k K -> length k < fuel) ->
  sd_build fuel K = Ok t -> (N.of_nat (length (sm_storage (sd_samc t))) < 2 ^ 63)%N ->
  forall t', sd_build_w cw fuel K = Ok t' <-> t' = t /\ (N.of_nat (length (sm_storage (sd_samc t))) < 2 ^ N.of_nat (8 * cw))%N.
Proof.
  intros cw fuel K t Hcw HN HS HB HF D Sz t'. destruct (width_accept cw false fuel K Hcw HN HS HB HF) as (s & BS & X).
  unfold sd_build in D. rewrite BS in D. cbn [bind] in D. set (rest := (do src <- _; _)) in D.
  assert (E : sd_samc t = s). { unfold rest in D. apply bind_Ok_inv in D. destruct D as (src & _ & D). apply bind_Ok_inv in D. destruct D as (lv & _ & D). injection D as <-. reflexivity. }
  rewrite E in *. destruct (X Sz) as [X1 X2]. split.
  - intros P. unfold sd_build_w in P. apply bind_Ok_inv in P. destruct P as (s' & P1 & P2). destruct (X2 s' P1) as [-> _]. split; [|apply X1; exists s; exact P1]. fold rest in P2. congruence.
  - intros [-> F]. apply X1 in F. destruct F as (s' & F). destruct (X2 s' F) as [-> _]. unfold sd_build_w. rewrite F. cbn [bind]. exact D.
Qed.
