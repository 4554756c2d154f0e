(** Proofs about LcpReportModel.v *)
From Coq Require Import List NArith ZArith Arith Bool Lia Permutation Sorted.
From Verif Require Import Base Spec Spec5 Spec6 BitUtilModel CalcModel CalcProof FitVectorModel FitVectorProof SuffixModel SaisCtor LcpReportSpec LcpReportModel.
Import ListNotations.
Local Open Scope nat_scope.

Lemma put_perm : forall x l, Permutation (x :: l) (put_sorted x l).
Proof.
  intros x. induction l as [|y l IH]; cbn [put_sorted]; auto. destruct (x <=? y)%N; auto.
  eapply perm_trans; [apply perm_swap|]. now apply perm_skip.
Qed.
Lemma sort_perm : forall l, Permutation l (std_sort l).
Proof. induction l as [|x l IH]; cbn [std_sort fold_right]; auto. eapply perm_trans; [apply perm_skip, IH|apply put_perm]. Qed.
Lemma put_sorted_ok : forall x l, StronglySorted N.le l -> StronglySorted N.le (put_sorted x l).
Proof.
  intros x. induction l as [|y l IH]; intros S; cbn [put_sorted]; [repeat constructor|]. inversion S as [|? ? S1 F]. destruct (N.leb_spec x y).
  - constructor; auto. constructor; auto. eapply Forall_impl; [|exact F]. cbn. intros. lia.
  - constructor; auto. apply (Permutation_Forall (put_perm x l)). constructor; [lia|auto].
Qed.
Lemma sort_sorted : forall l, StronglySorted N.le (std_sort l).
Proof. induction l; cbn [std_sort fold_right]; [constructor|now apply put_sorted_ok]. Qed.

Lemma count_perm : forall (p : N -> bool) l l', Permutation l l' -> count_if p l = count_if p l'.
Proof.
  intros p l l' P. unfold count_if. induction P; cbn [filter]; auto; try congruence.
  - destruct (p x); cbn [length]; congruence.
  - destruct (p x), (p y); reflexivity.
Qed.
Lemma count_app : forall (p : N -> bool) a b, count_if p (a ++ b) = count_if p a + count_if p b.
Proof. intros. unfold count_if. now rewrite filter_app, app_length. Qed.
Lemma count_le : forall (p : N -> bool) l, count_if p l <= length l.
Proof. intros p l. unfold count_if. induction l; cbn [filter length]; [lia|]. destruct (p a); cbn [length]; lia. Qed.
Lemma count_all : forall (p : N -> bool) l, Forall (fun x => p x = true) l -> count_if p l = length l.
Proof. intros p l F. unfold count_if. induction F; cbn [filter length]; auto. rewrite H. cbn [length]. congruence. Qed.
Lemma count_none : forall (p : N -> bool) l, Forall (fun x => p x = false) l -> count_if p l = 0.
Proof. intros p l F. unfold count_if. induction F; cbn [filter length]; auto. rewrite H. auto. Qed.

Lemma sorted_split : forall a m b, StronglySorted N.le (a ++ m :: b) -> Forall (fun x => (x <= m)%N) a /\ Forall (fun x => (m <= x)%N) b.
Proof.
  induction a as [|x a IH]; intros m b S; cbn [app] in S; inversion S as [|? ? S1 F].
  - split; auto.
  - destruct (IH _ _ S1) as (A & B). split; auto. constructor; auto. rewrite Forall_forall in F. apply F. apply in_or_app. right. now left.
Qed.

Lemma median_ok : forall l k m, lget (std_sort l) k = Ok m -> In m l /\ count_if (fun x => (x <? m)%N) l <= k < count_if (fun x => (x <=? m)%N) l.
Proof.
  intros l k m E. unfold lget in E. destruct (nth_error (std_sort l) k) as [x|] eqn:En; [|discriminate]. injection E as ->.
  destruct (nth_error_split _ _ En) as (a & b & Es & La). split.
  { apply (Permutation_in m (Permutation_sym (sort_perm l))). rewrite Es. apply in_or_app. right. now left. }
  rewrite !(count_perm _ _ _ (sort_perm l)), Es. pose proof (sort_sorted l) as S. rewrite Es in S. destruct (sorted_split _ _ _ S) as (A & B).
  rewrite !count_app. change (m :: b) with ([m] ++ b). rewrite !count_app. pose proof (count_le (fun x => (x <? m)%N) a).
  assert (C1 : count_if (fun x => (x <? m)%N) [m] = 0) by (apply count_none; constructor; auto; now rewrite N.ltb_irrefl).
  assert (C2 : count_if (fun x => (x <? m)%N) b = 0) by (apply count_none; eapply Forall_impl; [|exact B]; intros y Hy; now apply N.ltb_ge).
  assert (C3 : count_if (fun x => (x <=? m)%N) a = length a) by (apply count_all; eapply Forall_impl; [|exact A]; intros y Hy; now apply N.leb_le).
  assert (C4 : count_if (fun x => (x <=? m)%N) [m] = 1) by (unfold count_if; cbn [filter]; now rewrite N.leb_refl). lia.
Qed.

Lemma ll_add_signed : forall z x, ll_add (signed64 z) x = signed64 (z + Z.of_N x).
Proof.
  intros z x. unfold ll_add, signed64. set (m := Z.of_N x). clearbody m.
  assert (E : (((z + 2 ^ 63) mod 2 ^ 64 - 2 ^ 63 + m) mod 2 ^ 64 = (z + m) mod 2 ^ 64)%Z).
  { replace ((z + 2 ^ 63) mod 2 ^ 64 - 2 ^ 63 + m)%Z with ((z + 2 ^ 63) mod 2 ^ 64 + (m - 2 ^ 63))%Z by lia.
    rewrite Z.add_mod_idemp_l by lia. f_equal. lia. }
  rewrite E. set (s := (z + m)%Z). clearbody s. pose proof (Z.mod_pos_bound s (2 ^ 64) ltac:(lia)). pose proof (Z.div_mod s (2 ^ 64) ltac:(lia)).
  pose proof (Z.mod_pos_bound (s + 2 ^ 63) (2 ^ 64) ltac:(lia)). pose proof (Z.div_mod (s + 2 ^ 63) (2 ^ 64) ltac:(lia)).
  change (2 ^ 64)%Z with 18446744073709551616%Z in *. change (2 ^ 63)%Z with 9223372036854775808%Z in *.
  destruct (Z.ltb_spec (s mod 18446744073709551616) 9223372036854775808); nia.
Qed.
Lemma signed_small : forall z, (0 <= z < 2 ^ 63)%Z -> signed64 z = z.
Proof. intros z H. unfold signed64. rewrite Z.mod_small by lia. lia. Qed.

Lemma total_perm : forall l l', Permutation l l' -> total l = total l'.
Proof. unfold total. induction 1; cbn [fold_right] in *; lia. Qed.

Lemma stats_loop : forall l m z, exists M, fold_left (fun (st : N * Z) l => (N.max l (fst st), ll_add (snd st) l)) l (m, signed64 z) = (M, signed64 (z + Z.of_N (total l))) /\
  (m <= M)%N /\ Forall (fun x => (x <= M)%N) l /\ (M = m \/ In M l).
Proof.
  induction l as [|x l IH]; intros m z; cbn [fold_left total fold_right].
  - exists m. replace (z + Z.of_N 0)%Z with z by lia. repeat split; auto; lia.
  - cbn [fst snd]. rewrite ll_add_signed. destruct (IH (N.max x m) (z + Z.of_N x)%Z) as (M & E & A & B & C). exists M. rewrite E. fold (total l).
    split; [f_equal; f_equal; lia|]. split; [lia|]. split; [constructor; auto; lia|].
    destruct C as [C|C]; [|right; now right]. destruct (N.max_spec x m) as [(Q1 & Q2)|(Q1 & Q2)]; rewrite Q2 in C; subst M; [left; auto|right; now left].
Qed.

Definition stats (l : list N) (r : lreport) : Prop :=
  lr_count r = length l /\
  greatest l (lr_max r) /\
  lr_mean r = (signed64 (Z.of_N (total l)), length l) /\
  upper_median l (lr_median r) /\
  lr_map r = combine (seq 0 (length (per_width l))) (per_width l).

Lemma max_bits_perm : forall l l', Permutation l l' -> max_bits l = max_bits l'.
Proof. unfold max_bits. induction 1; cbn [map fold_right] in *; lia. Qed.

Lemma report_ok : forall l, l <> [] -> Forall (fun v => (v < 2 ^ 63)%N) l -> exists r, lcp_report l = Ok r /\ stats l r.
Proof.
  intros l Hl F. unfold lcp_report. pose proof (sort_perm l) as P. pose proof (Permutation_length P) as L.
  assert (Ln : 0 < length l) by (destruct l; [congruence|cbn; lia]).
  assert (Hm : length l / 2 < length (std_sort l)) by (rewrite <- L; apply Nat.div_lt; lia).
  destruct (lget (std_sort l) (length (std_sort l) / 2)) as [m| | |] eqn:Em.
  2-4: exfalso; rewrite <- L, (lget_nth _ _ _ 0%N) in Em by auto; discriminate.
  cbn [bind]. destruct (bit_length_frequencies_spec (std_sort l)) as (h & Eh & Lh & Nh); [now apply (Permutation_Forall P)|]. rewrite Eh. cbn [bind].
  destruct (stats_loop (std_sort l) 0%N 0%Z) as (M & EM & A & B & C). change (signed64 0) with 0%Z in EM. rewrite EM. eexists. split; [reflexivity|].
  unfold stats. cbn [lr_count lr_max lr_mean lr_median lr_map fst snd]. rewrite <- L in *. split; auto. split; [|split; [|split]].
  - assert (FB : Forall (fun x => (x <= M)%N) l) by (apply (Permutation_Forall (Permutation_sym P) B)). split; auto. destruct C as [->|C]; [|now apply (Permutation_in M (Permutation_sym P))].
    destruct l as [|x l]; [congruence|]. inversion FB. left. lia.
  - f_equal. rewrite (total_perm _ _ P). f_equal.
  - now apply median_ok.
  - assert (Eq : h = per_width l); [|now rewrite Eq]. unfold per_width. rewrite (max_bits_perm _ _ P), <- Lh. apply (nth_ext _ _ 0 0); [now rewrite map_length, seq_length|].
    intros i Hi. set (f := fun k => count_if (fun v => bits_needed v =? S k) l). rewrite (nth_indep (map f (seq 0 (length h))) 0 (f 0)) by now rewrite map_length, seq_length.
    rewrite map_nth, seq_nth by auto. unfold f. cbn [Nat.add]. rewrite Nh by lia. symmetry. now apply count_perm.
Qed.

Lemma list_read : forall l v, fv_of_list l = Ok v -> Forall (fun v => (v < 2 ^ 63)%N) l /\ fv_list v = Ok l.
Proof.
  intros l v E. destruct (forallb (fun v => (v <? 2 ^ 63)%N) l) eqn:B.
  - assert (F : Forall (fun x => (x < 2 ^ 63)%N) l) by (apply Forall_forall; intros x I; apply N.ltb_lt; apply (proj1 (forallb_forall _ _) B x I)). split; auto.
    destruct (fv_of_list_stmt l F) as (v' & E' & Z & G & _). rewrite E in E'. assert (v = v') by congruence. subst v'. unfold fv_list. rewrite Z.
    assert (Q : forall k l2, (forall i x, nth_error l2 i = Some x -> fv_get v (k + i) = Ok x) -> mapM (fv_get v) (seq k (length l2)) = Ok l2).
    { intros k l2. revert k. induction l2 as [|x l2 IH]; intros k H; cbn [length seq mapM]; auto. pose proof (H 0 x eq_refl) as H0. rewrite Nat.add_0_r in H0. rewrite H0. cbn [bind].
      rewrite IH; [reflexivity|]. intros i y Hy. specialize (H (S i) y Hy). now replace (S k + i) with (k + S i) by lia. }
    apply (Q 0 l). exact G.
  - exfalso. assert (X : exists x, In x l /\ (2 ^ 63 <= x)%N).
    { clear E. induction l as [|a l IH]; [discriminate|]. cbn [forallb] in B. apply andb_false_iff in B. destruct B as [B|B].
      - exists a. apply N.ltb_ge in B. split; [left; auto|auto].
      - destruct (IH B) as (x & I & Hx). exists x. split; [right; auto|auto]. }
    destruct X as (x & I & Hx). rewrite (fv_of_list_UB l x I Hx) in E. discriminate.
Qed.

Lemma step_len : forall s sa inv l st r, foldM (lcp_step s sa inv) l st = Ok r -> length (fst r) = length (fst st).
Proof.
  intros s sa inv l. induction l as [|i l IH]; intros st r E; cbn [foldM] in E; [injection E as <-; auto|].
  apply bind_Ok_inv in E. destruct E as (st1 & E1 & E). rewrite (IH _ _ E). unfold lcp_step in E1. destruct st as [lcp prev].
  apply bind_Ok_inv in E1. destruct E1 as (p & _ & E1). apply bind_Ok_inv in E1. destruct E1 as (x & _ & E1). apply bind_Ok_inv in E1. destruct E1 as (lcp' & E2 & E1). injection E1 as <-.
  cbn [fst]. unfold lset in E2. destruct (p <? length lcp); [|discriminate]. injection E2 as <-. apply upd_length.
Qed.

Lemma shown_same : forall s sa, rmap fst (build_lcp_shown s sa) = build_lcp s sa /\
  forall v r, build_lcp_shown s sa = Ok (v, r) -> exists l, fv_list v = Ok l /\ l <> [] /\ length l = fv_size sa /\ stats l r.
Proof.
  intros s sa. unfold build_lcp_shown, build_lcp. destruct (invert_sa sa) as [inv| | |]; cbn [bind rmap]; try (split; [reflexivity|discriminate]).
  destruct (foldM (lcp_step s sa inv) _ _) as [q| | |] eqn:Eq; cbn [bind rmap]; try (split; [reflexivity|discriminate]). apply step_len in Eq. cbn [fst] in Eq. rewrite repeat_length in Eq.
  destruct (fv_of_list (map N.of_nat (fst q))) as [v| | |] eqn:Ev; cbn [bind rmap]; try (split; [reflexivity|discriminate]). destruct (list_read _ _ Ev) as (F & R).
  destruct (fst q) as [|x q'] eqn:El.
  - cbn [map length] in *. assert (U : lcp_report [] = UB) by reflexivity. rewrite U. cbn [bind rmap]. rewrite <- Eq. split; [reflexivity|discriminate].
  - rewrite <- El in *. assert (Hn : map N.of_nat (fst q) <> []) by (rewrite El; discriminate). destruct (report_ok _ Hn F) as (r & Er & S). rewrite Er. cbn [bind rmap].
    assert (Hk : fv_size sa / 2 < length (fst q)) by (rewrite Eq; apply Nat.div_lt; [rewrite <- Eq, El; cbn; lia|lia]).
    rewrite (lget_nth _ (fst q) _ 0) by auto. cbn [bind]. split; [reflexivity|]. intros v' r' E. assert (v = v' /\ r = r') as (<- & <-) by (split; congruence).
    exists (map N.of_nat (fst q)). split; auto. split; auto. split; auto. now rewrite map_length.
Qed.

Lemma shown_all : forall s, (do x <- suffix_array_shown s; Ok (fst x)) = suffix_array s /\
  forall sa lcp r, suffix_array_shown s = Ok (sa, lcp, r) -> exists l, fv_list lcp = Ok l /\ l <> [] /\ length l = fv_size sa /\ stats l r.
Proof.
  intros s. unfold suffix_array_shown, suffix_array. destruct (build_sa s) as [sa| | |]; cbn [bind]; try (split; [reflexivity|discriminate]).
  destruct (shown_same s sa) as (E & Q). destruct (build_lcp_shown s sa) as [[v r]| | |]; cbn [rmap bind fst snd] in *; rewrite <- E; cbn [bind]; try (split; [reflexivity|discriminate]).
  split; [reflexivity|]. intros sa' lcp r' X. assert (sa = sa' /\ v = lcp /\ r = r') as (<- & <- & <-) by (repeat split; congruence). now apply Q.
Qed.

Lemma total_bound : forall l n, Forall (fun x => (x <= n)%N) l -> (total l <= N.of_nat (length l) * n)%N.
Proof. intros l n F. unfold total. induction F; cbn [fold_right length]; [lia|]. rewrite Nat2N.inj_succ. nia. Qed.

Lemma shown_ascii : forall s, s <> [] -> Forall (fun c => (0 < c < 128)%N) s -> (N.of_nat (length s) < 2 ^ 31)%N ->
  exists sa lcp r l, suffix_array_shown s = Ok (sa, lcp, r) /\ fv_list lcp = Ok l /\ length l = length s /\ lr_count r = length s /\ lr_mean r = (Z.of_N (total l), length s) /\ (lr_max r <= N.of_nat (length s))%N.
Proof.
  intros s Hs F L. destruct (ctor_ok s Hs F L) as (sa & lcp & l & a & E & _ & _ & _ & Ea & La & B). destruct (shown_all s) as (Q & R). rewrite E in Q.
  destruct (suffix_array_shown s) as [[[sa' lcp'] r]| | |]; cbn [bind fst] in Q; try discriminate. assert (sa' = sa /\ lcp' = lcp) as (-> & ->) by (split; congruence).
  destruct (R _ _ _ eq_refl) as (x & Ex & _ & _ & S). rewrite Ea in Ex. assert (x = map N.of_nat a) by congruence. subst x.
  exists sa, lcp, r, (map N.of_nat a). split; auto. split; auto. assert (Lm : length (map N.of_nat a) = length s) by now rewrite map_length. split; auto.
  destruct S as (S1 & (_ & S2) & S3 & _). rewrite Lm in *. split; auto.
  assert (FB : Forall (fun x => (x <= N.of_nat (length s))%N) (map N.of_nat a)).
  { apply Forall_forall. intros y I. apply in_map_iff in I. destruct I as (z & <- & I). destruct (In_nth _ _ 0 I) as (p & Hp & <-). specialize (B p ltac:(lia)). lia. }
  split; [|rewrite Forall_forall in FB; now apply FB]. rewrite S3. f_equal. apply signed_small. pose proof (total_bound _ _ FB) as T. rewrite Lm in T.
  split; [lia|]. assert ((total (map N.of_nat a) < 2 ^ 63)%N); [|lia]. set (n := N.of_nat (length s)) in *. clearbody n. change (2 ^ 31)%N with 2147483648%N in L. change (2 ^ 63)%N with 9223372036854775808%N. nia.
Qed.
