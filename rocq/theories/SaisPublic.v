(** The SuffixArray constructor: it completes, and when the array is sorted. *)
From Coq Require Import List NArith ZArith Arith Bool Lia Permutation Sorted.
From Verif Require Import Base Spec5 Spec6 FitVectorModel FitVectorProof StreamModel StringStreamModel StringStreamProof SuffixModel LcpProof SaisRows SaisPut SaisInduce SaisKey SaisOrder SaisName SaisTotal SaisSort.
Import ListNotations.
Local Open Scope nat_scope.

Definition positive (s : list N) : Prop := Forall (fun c => (0 < c)%N) s.
Lemma lex_sentinel : forall a b, positive a -> positive b -> lex_lt (a ++ [0%N]) (b ++ [0%N]) <-> lex_lt a b.
Proof.
  induction a as [|x a IH]; intros [|y b] A B; cbn [app lex_lt].
  - split; [intros [H|[_ []]]; lia|intros []].
  - inversion B; subst. split; [intros _; exact I|intros _; left; auto].
  - inversion A; subst. split; [intros [H|[-> _]]; lia|intros []].
  - inversion A; inversion B; subst. rewrite IH by auto. tauto.
Qed.
Lemma valid_of : forall s maxv, s <> [] -> positive s -> Forall (fun c => (c <= N.of_nat maxv)%N) s -> valid (s ++ [0%N]) maxv.
Proof.
  intros s maxv NE P M. assert (L : 0 < length s) by (destruct s; [congruence|cbn [length]; lia]). unfold positive in P. rewrite Forall_forall in P, M. split; rewrite app_length; cbn [length].
  - lia.
  - replace (length s + 1 - 1) with (length s) by lia. rewrite app_nth2, Nat.sub_diag by lia. reflexivity.
  - intros i I. rewrite app_nth1 by lia. apply P, nth_In. lia.
  - intros i I. destruct (Nat.eq_dec i (length s)) as [->|]; [rewrite app_nth2, Nat.sub_diag by lia; cbn [nth]; lia|]. rewrite app_nth1 by lia. apply M, nth_In. lia.
Qed.

Section S.
Variables (s : list N) (maxv : nat).
Hypothesis PS : positive s.
Let str := s ++ [0%N].
Hypothesis HV : valid str maxv.
Let n := length str.
Let nS : n = S (length s).
Proof. unfold n, str. rewrite app_length. cbn [length]. lia. Qed.
Lemma suf_str : forall i, i <= length s -> skipn i str = skipn i s ++ [0%N].
Proof. intros i H. unfold str. rewrite skipn_app. replace (i - length s) with 0 by lia. reflexivity. Qed.
Lemma pos_skip : forall i, positive (skipn i s).
Proof. intros i. unfold positive in *. rewrite Forall_forall in *. intros x X. apply PS. rewrite <- (firstn_skipn i s). apply in_or_app. auto. Qed.
Lemma suf_iff : forall i j, i <= length s -> j <= length s -> lex_lt (skipn i str) (skipn j str) <-> lex_lt (skipn i s) (skipn j s).
Proof. intros i j I J. rewrite !suf_str by auto. apply lex_sentinel; apply pos_skip. Qed.
Lemma ty_suf : forall p, S p < n -> ty str p = true <-> lex_lt (skipn p str) (skipn (S p) str).
Proof.
  intros p P. split; [intros T; apply (suf_S str maxv HV n); auto; lia|]. intros L. destruct (ty str p) eqn:T; auto. exfalso. apply (lex_lt_asym _ _ L). apply (suf_L str maxv HV n); auto; fold n; lia.
Qed.
Lemma ty_sufL : forall p, S p < n -> ty str p = false <-> lex_lt (skipn (S p) str) (skipn p str).
Proof.
  intros p P. split; [intros T; apply (suf_L str maxv HV n); auto; fold n; lia|]. intros L. destruct (ty str p) eqn:T; auto. exfalso. apply (lex_lt_asym _ _ L). apply (suf_S str maxv HV n); auto; lia.
Qed.
Lemma valley_lms : forall p, valley s p <-> lmsb str p = true.
Proof.
  intros p. rewrite (lmsb_spec str maxv HV). fold n. unfold valley. split.
  - intros ((A1 & A2) & B & C). split; [lia|]. split; [lia|]. split.
    + apply ty_sufL; [lia|]. replace (S (p - 1)) with p by lia. apply suf_iff; auto. lia.
    + destruct (Nat.eq_dec p (length s)) as [->|]. { replace (length s) with (n - 1) by lia. apply (ty_last str maxv HV). } apply ty_suf; [lia|]. apply suf_iff; try lia. apply C. lia.
  - intros (A & B & C & D). split; [lia|]. split.
    + apply suf_iff; try lia. apply ty_sufL in C; [|lia]. replace (S (p - 1)) with p in C by lia. exact C.
    + intros E. apply suf_iff; try lia. apply ty_suf; auto. lia.
Qed.
Lemma ch_str : forall p, p < length s -> ch str p = N.to_nat (nth p s 0%N).
Proof. intros p H. unfold ch, str. rewrite app_nth1 by auto. reflexivity. Qed.
Lemma ch_end : ch str (length s) = 0.
Proof. replace (length s) with (n - 1) by lia. apply (ch_last str maxv HV). Qed.
Lemma nth_error_ch : forall p q, p < length s -> q < length s -> nth_error s p = nth_error s q <-> ch str p = ch str q.
Proof.
  intros p q P Q. rewrite (nth_error_nth' s 0%N P), (nth_error_nth' s 0%N Q), !ch_str by auto. split; [intros H; injection H as ->; auto|]. intros H. f_equal. lia.
Qed.
Lemma stretch_key : forall p q, p < length s -> q < length s -> p <> q -> same_stretch s p q <-> ekey str true p = ekey str true q.
Proof.
  intros p q P Q PQ. split.
  - intros (d & D & V1 & V2 & NV & C). assert (W1 := V1). assert (W2 := V2). apply valley_lms in W1, W2. apply (lmsb_spec str maxv HV) in W1, W2. destruct W1 as (_ & B1 & T1 & T1'), W2 as (_ & B2 & T2 & T2'). fold n in B1, B2.
    assert (IN : forall e, e <= d -> p + e < length s /\ q + e < length s).
    { intros e E. specialize (C d (le_n d)). destruct (Nat.eq_dec (p + d) (length s)) as [X|X].
      - exfalso. assert (Y : nth_error s (p + d) = None) by (apply nth_error_None; lia). rewrite Y in C. symmetry in C. apply nth_error_None in C. lia.
      - destruct (Nat.eq_dec (q + d) (length s)) as [X'|X']; [|lia]. exfalso. assert (Y : nth_error s (q + d) = None) by (apply nth_error_None; lia). rewrite Y in C. apply nth_error_None in C. lia. }
    apply (ekey_back str maxv HV d); auto; try discriminate; try (fold n; lia).
    + intros e E. apply nth_error_ch; try apply IN; auto.
    + intros e E [Z|Z] X; [|discriminate]. apply valley_lms in X. apply (proj1 (NV e (conj Z E)) X).
  - intros E. destruct (ekey_next str maxv HV n true p q) as (d & D0 & D1 & D2 & D3 & D4 & _); auto; try discriminate; try (fold n; lia). assert (D : 0 < d) by (destruct d; [discriminate D0; auto|lia]).
    assert (B1 := D1). assert (B2 := D2). apply (lmsb_spec str maxv HV) in B1, B2. fold n in B1, B2.
    exists d. split; auto. split; [apply valley_lms; auto|]. split; [apply valley_lms; auto|]. split.
    + intros e E0. split; intros X; apply valley_lms in X; [destruct (D4 e ltac:(lia) (or_introl X))|destruct (D4 e ltac:(lia) (or_intror X))]; lia.
    + assert (IN : forall e, e <= d -> p + e < length s /\ q + e < length s).
      { intros e E0. specialize (D3 e E0). destruct (Nat.eq_dec (p + e) (n - 1)) as [X|X].
        - exfalso. rewrite X in D3. unfold n in D3. rewrite (ch_last str maxv HV) in D3. symmetry in D3. apply (ch_zero str maxv HV) in D3; fold n; fold n in D3; lia.
        - destruct (Nat.eq_dec (q + e) (n - 1)) as [X'|X']; [|lia]. exfalso. rewrite X' in D3. unfold n in D3. rewrite (ch_last str maxv HV) in D3. apply (ch_zero str maxv HV) in D3; fold n; fold n in D3; lia. }
      intros e E0. apply nth_error_ch; try apply IN; auto.
Qed.
Lemma end_key : forall q, q < length s -> ekey str true (length s) <> ekey str true q.
Proof.
  intros q Q E. unfold ekey in E. rewrite (key_eq _ _ _ (length s)), (key_eq _ _ _ q) in E by (fold n; lia). cbn [negb andb] in E. injection E as E _ _. pose proof ch_end as X. pose proof (ch_pos str maxv HV q ltac:(fold n; lia)) as Y. unfold ch in *. rewrite E in X. lia.
Qed.
Lemma key_stretch : forall p q, p <= length s -> q <= length s -> p <> q -> ekey str true p = ekey str true q -> p < length s /\ q < length s /\ same_stretch s p q.
Proof.
  intros p q P Q PQ E. destruct (Nat.eq_dec p (length s)) as [->|]; [exfalso; apply (end_key q); auto; lia|]. destruct (Nat.eq_dec q (length s)) as [->|]; [exfalso; apply (end_key p); auto; lia|].
  split; [lia|]. split; [lia|]. apply stretch_key; auto; lia.
Qed.
Lemma lms_le : forall p, lmsb str p = true -> p <= length s.
Proof. intros p H. apply (lmsb_spec str maxv HV) in H. fold n in H. lia. Qed.
Lemma distinct_iff : (forall p q, valley s p -> valley s q -> same_stretch s p q -> p = q) <-> (forall p q, lmsb str p = true -> lmsb str q = true -> ekey str true p = ekey str true q -> p = q).
Proof.
  split; intros H p q P Q E.
  - destruct (Nat.eq_dec p q); auto. apply (H p q); try (apply valley_lms; auto). apply key_stretch; auto using lms_le.
  - destruct (Nat.eq_dec p q) as [|PQ]; auto. apply valley_lms in P, Q.
    assert (IN : p < length s /\ q < length s). { destruct E as (d & D & V1 & V2 & _). destruct V1 as [V1 _], V2 as [V2 _]. lia. }
    apply H; auto. apply stretch_key; tauto.
Qed.
(** the first pass alone *)
Lemma first_sorted : forall U, Permutation U (seq 0 n) -> StronglySorted (fun p q => lex_lt (key str N.of_nat true p) (key str N.of_nat true q)) U ->
  StronglySorted (fun p q => lex_lt (skipn p str) (skipn q str)) U <-> (forall p q, p < q -> q < length s -> same_stretch s p q -> lex_lt (skipn p s) (skipn q s)).
Proof.
  intros U PU SU. assert (IU : forall p, In p U <-> p < n). { intros p. split; intros X; [apply (Permutation_in _ PU) in X; apply in_seq in X; lia|apply (Permutation_in _ (Permutation_sym PU)); apply in_seq; lia]. } split.
  - intros SS p q PQ Q E. apply suf_iff; try lia. assert (KL : lex_lt (key str N.of_nat true p) (key str N.of_nat true q)).
    { apply stretch_key in E; try lia. destruct (ekey_next str maxv HV n true p q) as (d & _ & _ & _ & _ & _ & D); auto; try discriminate; try (fold n; lia). apply D. lia. }
    assert (G : forall l, StronglySorted (fun p q => lex_lt (skipn p str) (skipn q str)) l -> StronglySorted (fun p q => lex_lt (key str N.of_nat true p) (key str N.of_nat true q)) l -> In p l -> In q l -> lex_lt (skipn p str) (skipn q str)).
    { clear -KL PQ. induction 1 as [|x l S1 IH F]; intros S2 P Q; [destruct P|]. inversion S2 as [|? ? S3 F2]; subst. rewrite Forall_forall in F, F2. destruct P as [->|P], Q as [->|Q]; auto; [lia|]. exfalso. exact (lex_lt_asym _ _ KL (F2 p P)). }
    apply (G U); auto; apply IU; lia.
  - intros H. apply ss_ext with (2 := SU). intros p q P Q KL. apply IU in P, Q. destruct (key_weak str N.of_nat n true p q ltac:(lia) KL) as [W|W]; [apply (ekey_suf str maxv HV n true); auto; lia|].
    assert (PQ : p <> q) by (intros ->; exact (lex_lt_irrefl _ KL)). destruct (key_stretch p q ltac:(lia) ltac:(lia) PQ W) as (P1 & Q1 & E).
    destruct (ekey_next str maxv HV n true p q) as (d & _ & _ & _ & _ & _ & D); auto; try discriminate; try (fold n; lia). apply D in KL. apply suf_iff; try lia. apply H; auto. lia.
Qed.
(** the reduced string *)
Lemma reduced_spec : forall U sub k last, Permutation U (seq 0 n) -> Names str N.of_nat U sub k last -> 2 <= length (find_lms (classified str)) ->
  let red := map N.of_nat (map (nmf sub) (find_lms (classified str))) in exists r, red = r ++ [0%N] /\ r <> [] /\ positive r /\ reduces s r.
Proof.
  intros U sub k last PU NM L2. cbn zeta. set (lms := find_lms (classified str)) in *. pose proof (reduced_valid str maxv HV _ _ _ _ _ PU NM L2) as V. fold lms in V.
  assert (IU : forall p, p < n -> In p U) by (intros p P; apply (Permutation_in _ (Permutation_sym PU)); apply in_seq; lia).
  pose proof (lms_nth_last str maxv HV) as [LL _]. fold lms in LL. pose proof (lms_sorted str maxv HV) as SS. fold lms in SS.
  set (vs := firstn (length lms - 1) lms). assert (EL : lms = vs ++ [n - 1]).
  { rewrite <- (firstn_skipn (length lms - 1) lms) at 1. fold vs. f_equal. destruct (skipn (length lms - 1) lms) as [|x [|y t]] eqn:E.
    - apply (f_equal (@length nat)) in E. rewrite skipn_length in E. cbn [length] in E. lia.
    - f_equal. change (x = length str - 1). rewrite <- LL. assert (X : nth (length lms - 1) (firstn (length lms - 1) lms ++ skipn (length lms - 1) lms) 0 = x) by (rewrite app_nth2, firstn_length, Nat.min_l, Nat.sub_diag, E by (rewrite ?firstn_length; lia); reflexivity). rewrite firstn_skipn in X. auto.
    - apply (f_equal (@length nat)) in E. rewrite skipn_length in E. cbn [length] in E. lia. }
  assert (Lv : length vs = length lms - 1) by (unfold vs; rewrite firstn_length; lia).
  assert (IN : forall p, In p lms <-> lmsb str p = true) by (intros; apply (in_lms str maxv HV)).
  assert (SV := SS). rewrite EL in SV. apply ss_app_inv in SV. destruct SV as (SV & _ & VL).
  assert (IV : forall i, In i vs <-> valley s i /\ i < length s).
  { intros i. rewrite valley_lms, <- IN, EL. split.
    - intros H. split; [apply in_or_app; auto|]. specialize (VL i (n - 1) H (or_introl eq_refl)). lia.
    - intros [H L]. apply in_app_or in H. destruct H as [H|[<-|[]]]; auto. lia. }
  set (r := map (fun p => N.of_nat (nmf sub p)) vs). assert (ER : map N.of_nat (map (nmf sub) lms) = r ++ [N.of_nat (nmf sub (n - 1))]) by (rewrite map_map, EL, map_app; reflexivity).
  assert (Lr : length r = length vs) by (unfold r; apply map_length).
  assert (Z : nmf sub (n - 1) = 0).
  { pose proof (v_last _ _ V) as X. rewrite !map_length in X. rewrite ER in X. rewrite app_nth2 in X by lia. rewrite Lr, Lv, Nat.sub_diag in X. cbn [nth] in X. lia. }
  rewrite Z in ER. exists r. split; [exact ER|]. split; [intros X; rewrite X in Lr; cbn [length] in Lr; lia|].
  assert (PR : positive r).
  { apply Forall_forall. intros x X. destruct (In_nth _ _ 0%N X) as (i & I & <-). pose proof (v_pos _ _ V i) as Y. rewrite ER, app_length in Y. cbn [length] in Y. rewrite app_nth1 in Y by auto. apply Y. lia. }
  split; auto. exists vs. split; auto. split; auto. split; auto.
  assert (NTH : forall a, a < length vs -> nth a r 0%N = N.of_nat (nmf sub (nth a vs 0))).
  { intros a A. unfold r. rewrite nth_indep with (d' := N.of_nat (nmf sub 0)) by (rewrite map_length; auto). apply (map_nth (fun p => N.of_nat (nmf sub p))). }
  split.
  - intros a b A B. rewrite !NTH by auto. assert (Ia : In (nth a vs 0) vs) by (apply nth_In; auto). assert (Ib : In (nth b vs 0) vs) by (apply nth_In; auto). apply IV in Ia, Ib. destruct Ia as [Va Ba], Ib as [Vb Bb]. apply valley_lms in Va, Vb.
    set (p := nth a vs 0) in *. set (q := nth b vs 0) in *. rewrite <- suf_iff by lia.
    assert (X : (N.of_nat (nmf sub p) < N.of_nat (nmf sub q))%N <-> lex_lt (ekey str true p) (ekey str true q)) by (rewrite (nm_lt _ _ _ _ _ _ NM p q) by (auto; apply IU; lia); lia). rewrite X. split.
    + intros L. split; [apply (ekey_suf str maxv HV n true); auto; fold n; lia|]. intros SM. apply stretch_key in SM; auto; [rewrite SM in L; exact (lex_lt_irrefl _ L)|]. intros PQ. rewrite PQ in L. exact (lex_lt_irrefl _ L).
    + intros [L NS]. assert (PQ : p <> q) by (intros PQ; rewrite PQ in L; exact (lex_lt_irrefl _ L)). rewrite stretch_key in NS by auto. apply lex_lt_total in NS. destruct NS as [W|W]; auto. exfalso. apply (lex_lt_asym _ _ L). apply (ekey_suf str maxv HV n true); auto; fold n; lia.
  - intros v (x & X & VX). split.
    + intros V0. unfold r in X. apply in_map_iff in X. destruct X as (p & <- & P). apply IV in P. destruct P as [P1 P2]. apply valley_lms in P1.
      pose proof (nm_max _ _ _ _ _ _ NM p (IU p ltac:(lia)) P1) as M. pose proof (lms_last str maxv HV) as LA. fold n in LA.
      assert (last_pos : 0 < last). { destruct (nm_last _ _ _ _ _ _ NM) as [(_ & _ & A)|(A1 & A2 & _)]; [rewrite A in LA; [discriminate|apply IU; lia]|]. apply (lmsb_spec str maxv HV) in A2. lia. }
      destruct (nm_onto _ _ _ _ _ _ NM (N.to_nat v) ltac:(lia) last_pos) as (t & T1 & T2 & T3). unfold r. apply in_map_iff. exists t. split; [lia|]. apply IN in T2. rewrite EL in T2. apply in_app_or in T2. destruct T2 as [T2|[<-|[]]]; auto. lia.
    + intros I. unfold positive in PR. rewrite Forall_forall in PR. apply PR. exact I.
Qed.
End S.

Theorem sais_sortable : forall s, sortable s -> forall fuel maxv, s <> [] -> positive s -> valid (s ++ [0%N]) maxv -> length s < fuel ->
  exists U, sais fuel (s ++ [0%N]) maxv = Ok (map Some U) /\ Permutation U (seq 0 (S (length s))) /\ StronglySorted (fun p q => lex_lt (skipn p (s ++ [0%N])) (skipn q (s ++ [0%N]))) U.
Proof.
  assert (LS : forall s : list N, length (s ++ [0%N]) = S (length s)) by (intros; rewrite app_length; cbn [length]; lia).
  induction 1 as [s D O|s p q Vp Vq SS PQ _ IH]; intros fuel maxv NE PS HV LF; (destruct fuel as [|fuel]; [lia|]).
  - assert (D1 := proj1 (distinct_iff s maxv PS HV) D). destruct (sais_first _ maxv HV fuel D1) as (U & A & B & C). rewrite LS in B. exists U. split; auto. split; auto. apply (first_sorted s maxv PS HV U); auto. rewrite LS. auto.
  - assert (B : p < length s /\ q < length s). { clear -SS PQ PS NE HV Vp Vq. destruct SS as (d & D & V1 & V2 & _). destruct V1 as [V1 _], V2 as [V2 _]. lia. }
    apply (stretch_key s maxv PS HV) in SS; try tauto. apply (valley_lms s maxv PS HV) in Vp, Vq. destruct (sais_again _ maxv HV fuel p q Vp Vq SS PQ) as (U0 & sub & k & last & P0 & NM & G). cbn zeta in G. destruct G as (V & L & LT & G).
    assert (L2 : 2 <= length (find_lms (classified (s ++ [0%N])))). { pose proof (n2 _ _ V) as X. rewrite L in X. exact X. }
    destruct (reduced_spec s maxv PS HV U0 sub k last P0 NM L2) as (r & ER & RN & RP & RR). rewrite ER in *.
    assert (Lr : length (find_lms (classified (s ++ [0%N]))) = S (length r)) by (rewrite <- L, LS; auto). rewrite LS in LT.
    destruct (IH r RR fuel k RN RP V ltac:(lia)) as (W & A1 & A2 & A3). rewrite Lr in G. destruct (G W A1 A2) as [_ G2]. destruct (G2 A3) as (U & X). rewrite LS in X. exists U. exact X.
Qed.
