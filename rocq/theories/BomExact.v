(** The backward oracle matcher, whatever lies behind the array of the oracle. *)
From Coq Require Import List NArith ZArith Arith Bool Lia Sorted.
From Verif Require Import Base Spec4 Spec20 Spec24 PatternModel PatternProof FoModel FoRing FoFree FoArray FoOracle FoProof FoExact BomProof.
Import ListNotations.
Local Open Scope nat_scope.

Lemma window_length : forall text m x, x + m <= length text -> length (window text m x) = m.
Proof. intros text m x H. unfold window. rewrite rev_length, firstn_length, skipn_length. lia. Qed.
Lemma window_nth : forall text m x j, x + m <= length text -> j < m -> nth j (window text m x) 0%N = nth (x + m - 1 - j) text 0%N.
Proof. intros text m x j H Hj. unfold window. rewrite rev_nth by (rewrite firstn_length, skipn_length; lia). rewrite firstn_length, skipn_length. rewrite Nat.min_l by lia. rewrite nth_firstn' by lia. rewrite nth_skipn'. f_equal. lia. Qed.
Lemma window_bw : forall text m x k, x + m <= length text -> k <= m -> firstn k (window text m x) = bw text (x + m) k.
Proof.
  intros text m x k H Hk. pose proof (window_length text m x H) as L. apply (nth_ext _ _ 0%N 0%N).
  - rewrite firstn_length, bw_length, L by lia. lia.
  - intros j Hj. rewrite firstn_length, L in Hj. rewrite nth_firstn', window_nth, bw_nth by lia. reflexivity.
Qed.
Lemma skipn_one : forall (w : list N) k, k < length w -> skipn k w = nth k w 0%N :: skipn (S k) w.
Proof. induction w as [|c w IH]; intros k L; cbn [length] in L; [lia|]. destruct k as [|k]; [reflexivity|]. cbn [skipn nth]. apply IH. lia. Qed.

Section Back.
Variable key text : list N.
Hypothesis Hkey : nonzero_bytes key.
Hypothesis Nkey : key <> [].
Hypothesis Htext : bytes_below 256 text.
Variable beyond : list N.
Let m := length key.
Variable o : foracle.
Variable log : list (nat * nat).
Variable lrs : list nat.
Hypothesis Hbuilt : Built (rev key) o log lrs.
Let E := tr (rev key) log.
Let X := continued E m beyond.
Let Hck := nonzero_nth _ (rev_bytes key Hkey).
Let Lm : length (rev key) = m := rev_length key.

Lemma m_pos : 1 <= m.
Proof using All. assert (Z : length key <> 0) by (intros C; apply length_zero_iff_nil in C; contradiction). unfold m. clear - Z. lia. Qed.
Lemma E_lt : forall s c t, E s c t -> s < t <= m.
Proof using All. intros s c t (Dt & _). pose proof (D_lt (rev key) Hck o log lrs Hbuilt _ _ Dt) as L. rewrite Lm in L. lia. Qed.
Lemma X_fun : forall s c t t', X s c t -> X s c t' -> t = t'.
Proof using All.
  intros s c t t' [A|(A & B & C)] [A'|(A' & B' & C')]; try congruence.
  - destruct A as (A1 & A2), A' as (A1' & A2'). eapply (D_det (rev key) Hck o log lrs Hbuilt); eauto; congruence.
  - apply E_lt in A. lia.
  - apply E_lt in A'. lia.
Qed.
Lemma runX_fun : forall w s t t', run X s w t -> run X s w t' -> t = t'.
Proof using All. induction w as [|c w IH]; intros s t t' R R'; inversion R; inversion R'; subst; auto. assert (t0 = t1) by (eapply X_fun; eauto). subst. eauto. Qed.
Lemma image_cases : forall s c, (c < 256)%N ->
  (exists t, fo_image beyond o s c = Ok (Some t) /\ X s c t) \/
  (fo_image beyond o s c = Ok None /\ (forall t, ~ X s c t) /\ ~ (m < s \/ s = m /\ beyond = [])) \/
  (fo_image beyond o s c = UB /\ (forall t, ~ X s c t) /\ (m < s \/ s = m /\ beyond = [])).
Proof using All.
  intros s c Hc. destruct (lt_eq_lt_dec s m) as [[L|L]|L].
  - destruct (image_ok (rev key) Hck o log lrs Hbuilt beyond s c) as (r & Er & Hr); [rewrite Lm; auto|auto|]. rewrite Er. destruct r as [t|].
    + left. exists t. split; auto. left. apply Hr. reflexivity.
    + right. left. split; auto. split; [|lia]. intros t [T|(T & _)]; [|lia]. apply Hr in T. discriminate.
  - subst s. assert (NE : forall t, ~ E m c t) by (intros t T; apply E_lt in T; lia). destruct beyond as [|z b] eqn:Eb.
    + right. right. rewrite <- Lm, (image_stuck (rev key) Hck o log lrs Hbuilt). split; auto. rewrite Lm. split; [|auto]. intros t [T|(_ & _ & T)]; [exact (NE t T)|]. rewrite Nat.sub_diag in T. discriminate.
    + destruct (N.eqb_spec z c) as [Ez|Nz].
      * left. exists (S m). split.
        -- unfold fo_image. rewrite (bt_ck _ _ _ _ Hbuilt). replace (m + 1) with (S m) by lia. cbn [fo_check]. rewrite (lget_nth _ _ _ 0%N) by (rewrite app_length, Lm; cbn [length]; lia). rewrite app_nth2 by (rewrite Lm; lia). rewrite Lm, Nat.sub_diag. cbn [nth bind]. rewrite (proj2 (N.eqb_eq z c) Ez). reflexivity.
        -- right. split; auto. split; auto. rewrite Nat.sub_diag. cbn [nth_error]. congruence.
      * right. left. split; [|split].
        -- rewrite <- Lm. apply (image_last (rev key) Hck o log lrs Hbuilt (z :: b) z c); [reflexivity|now apply N.eqb_neq].
        -- intros t [T|(_ & _ & T)]; [exact (NE t T)|]. rewrite Nat.sub_diag in T. cbn [nth_error] in T. congruence.
        -- intros [C|(_ & C)]; [lia|discriminate].
  - assert (NE : forall t, ~ E s c t) by (intros t T; apply E_lt in T; lia). assert (Sb : lget (fo_base o) s = UB).
    { destruct (bt_arr _ _ _ _ Hbuilt) as (st & q & R & A & Eb & En). rewrite Eb. apply lget_UB. rewrite (ar_bl _ _ _ _ _ A), Lm. lia. }
    unfold fo_image. rewrite (bt_ck _ _ _ _ Hbuilt). replace (s + 1) with (S s) by lia. cbn [fo_check]. destruct (nth_error beyond (s - m)) as [d|] eqn:En.
    + assert (Ls : s - m < length beyond) by (apply nth_error_Some; congruence). rewrite (lget_nth _ _ _ 0%N) by (rewrite app_length, Lm; lia). rewrite app_nth2 by (rewrite Lm; lia). rewrite Lm, (nth_error_nth _ _ 0%N En). cbn [bind]. destruct (N.eqb_spec d c) as [Ed|Nd].
      * left. exists (S s). split; auto. right. split; [lia|]. split; auto. congruence.
      * right. right. rewrite Sb. split; auto. split; [|auto]. intros t [T|(_ & _ & T)]; [exact (NE t T)|congruence].
    + right. right. apply nth_error_None in En. rewrite (proj2 (lget_UB _ (rev key ++ beyond) s)) by (rewrite app_length, Lm; lia). split; auto. split; [|auto]. intros t [T|(_ & _ & T)]; [exact (NE t T)|]. apply nth_error_None in En. congruence.
Qed.
Lemma back_cases : forall cnt p s, cnt <= p <= length text ->
  exists k u, k <= cnt /\ run X s (bw text p k) u /\ (k < cnt -> forall t, ~ X u (nth (p - 1 - k) text 0%N) t) /\
    ((bom_back beyond o text cnt p s = Ok (cnt - k) /\ ~ (k < cnt /\ (m < u \/ u = m /\ beyond = []))) \/ (bom_back beyond o text cnt p s = UB /\ k < cnt /\ (m < u \/ u = m /\ beyond = []))).
Proof using All.
  induction cnt as [|cnt IH]; intros p s Hp.
  - exists 0, s. split; auto. split; [destruct p; constructor|]. split; [lia|]. left. split; [reflexivity|lia].
  - destruct p as [|p]; [lia|]. cbn [bom_back]. rewrite (lget_nth _ text p 0%N) by lia. cbn [bind]. set (c := nth p text 0%N). assert (Ic : In c text) by (apply nth_In; lia). assert (Hc : (c < 256)%N) by (unfold bytes_below in Htext; rewrite Forall_forall in Htext; auto).
    destruct (image_cases s c Hc) as [(t & Ei & T)|[(Ei & NX & G)|(Ei & NX & G)]]; rewrite Ei; cbn [bind].
    + destruct (IH p t ltac:(lia)) as (k & u & K & R & St & Out). exists (S k), u. split; [lia|]. split; [cbn [bw]; econstructor; eauto|]. split.
      * intros Lk t'. replace (S p - 1 - S k) with (p - 1 - k) by lia. apply St. lia.
      * destruct Out as [(O1 & O2)|(O1 & O2 & O3)]; [left; split; [exact O1|intros (? & ?); apply O2; split; [lia|auto]]|right; split; [exact O1|split; [lia|auto]]].
    + exists 0, s. split; [lia|]. split; [constructor|]. replace (S p - 1 - 0) with p by lia. split; auto. left. split; [f_equal; lia|tauto].
    + exists 0, s. split; [lia|]. split; [constructor|]. replace (S p - 1 - 0) with p by lia. split; auto. right. split; [auto|split; [lia|auto]].
Qed.
(** one window *)
Lemma window_cases : forall x, x + m <= length text -> exists k s, reads X text m x k s /\
  ((bom_back beyond o text m (x + m) 0 = Ok (m - k) /\ ~ falls_off beyond m k s) \/ (bom_back beyond o text m (x + m) 0 = UB /\ falls_off beyond m k s)).
Proof using All.
  intros x Hx. pose proof (window_length text m x Hx) as Lw. destruct (back_cases m (x + m) 0 ltac:(lia)) as (k & u & K & R & St & Out). exists k, u. split.
  - split; auto. split; [rewrite window_bw by lia; exact R|]. intros c t En. assert (Lk : k < m) by (rewrite <- Lw; apply nth_error_Some; congruence). apply (nth_error_nth _ _ 0%N) in En. rewrite window_nth in En by lia. rewrite <- En. apply St; auto.
  - unfold falls_off. tauto.
Qed.
Lemma reads_fun : forall x k s k' s', x + m <= length text -> reads X text m x k s -> reads X text m x k' s' -> k = k' /\ s = s'.
Proof using All.
  intros x k s k' s' Hx. pose proof (window_length text m x Hx) as Lw.
  assert (G : forall k s k' s', reads X text m x k s -> reads X text m x k' s' -> k' <= k).
  { clear k s k' s'. intros k s k' s' (K & R & St) (K' & R' & St'). destruct (le_lt_dec k' k) as [L|L]; auto. exfalso. set (w := window text m x) in *.
    assert (Sp : firstn k' w = firstn k w ++ nth k w 0%N :: firstn (k' - k - 1) (skipn (k + 1) w)).
    { rewrite <- (firstn_skipn k (firstn k' w)). rewrite firstn_firstn, Nat.min_l by lia. f_equal. rewrite skipn_firstn_comm. rewrite (skipn_one w k) by lia. replace (k' - k) with (S (k' - k - 1)) by lia. cbn [firstn]. replace (S (k' - k - 1) - 1) with (k' - k - 1) by lia. replace (k + 1) with (S k) by lia. reflexivity. }
    rewrite Sp in R'. assert (Sr : forall v c y a b, run X a (v ++ c :: y) b -> exists h t, run X a v h /\ X h c t).
    { clear. induction v as [|d v IH]; intros c y a b R; cbn [app] in R; inversion R; subst; [exists a, t; split; [constructor|auto]|]. destruct (IH _ _ _ _ H4) as (h & t' & A & B). exists h, t'. split; auto. econstructor; eauto. }
    destruct (Sr _ _ _ _ _ R') as (h & t & A & B). assert (h = s) by (eapply runX_fun; eauto). subst h. apply (St (nth k w 0%N) t); auto. apply nth_error_nth'. lia. }
  intros A B. assert (k = k') by (apply Nat.le_antisymm; eapply G; eauto). subst k'. split; auto. destruct A as (_ & A & _), B as (_ & B & _). eapply runX_fun; eauto.
Qed.
Lemma visited_fits : forall a y, visited X text m a y -> y + m <= length text.
Proof using All. intros a y V. destruct V; auto. Qed.
Lemma visited_head : forall a k s y, a + m <= length text -> reads X text m a k s -> (visited X text m a y <-> y = a \/ visited X text m (next_window m a k) y).
Proof using All.
  intros a k s y Ha Ra. split.
  - intros V. induction V as [H|x k' s' V IH R H]; auto. right. destruct IH as [->|V'].
    + destruct (reads_fun a k s k' s' Ha Ra R) as (<- & _). constructor. exact H.
    + econstructor; eauto.
  - intros [->|V]; [now constructor|]. induction V as [H|x k' s' V IH R H]; [econstructor; eauto; now constructor|econstructor; eauto].
Qed.
Lemma next_gt : forall x k s, reads X text m x k s -> x < next_window m x k.
Proof using All. intros x k s (K & _). pose proof m_pos. unfold next_window. destruct (Nat.eqb_spec k m); lia. Qed.
Lemma visited_ge : forall a y, visited X text m a y -> a <= y.
Proof using All. intros a y V. induction V as [H|x k s V IH R H]; auto. apply next_gt in R. lia. Qed.
(** runs that stay inside the oracle *)
Lemma run_inside : forall w s u, run X s w u -> u <= m -> run E s w u.
Proof using All.
  intros w s u R. induction R as [s|s c t w u T R IH]; intros Hu; [constructor|]. econstructor; [|apply IH; auto]. destruct T as [T|(A & -> & _)]; auto. exfalso.
  assert (G : forall v a b, run X a v b -> a <= b).
  { intros v a b P. induction P as [|a d t' v b T' P IH']; auto. destruct T' as [T'|(_ & -> & _)]; [apply E_lt in T'; lia|lia]. }
  apply G in R. lia.
Qed.
Lemma run_grow : forall w s u, run E s w u -> run X s w u.
Proof using All. intros w s u R. induction R; [constructor|econstructor; eauto; left; auto]. Qed.
(** a window which can be read completely is an occurrence iff the last state is that of the oracle *)
Lemma full_bound : forall x s, reads X text m x m s -> x + m <= length text -> m <= s.
Proof using All.
  intros x s (_ & R & _) Hx. assert (G : forall v a b, run X a v b -> a + length v <= b).
  { intros v a b P. induction P as [|a d t' v b T' P IH']; cbn [length]; [lia|]. destruct T' as [T'|(_ & -> & _)]; [apply E_lt in T'; lia|lia]. }
  apply G in R. rewrite firstn_length, window_length in R by auto. lia.
Qed.
Lemma full_occ : forall x s, reads X text m x m s -> x + m <= length text -> (occurs_at key text x = true <-> s = m).
Proof using All.
  intros x s R Hx. pose proof (full_bound x s R Hx) as Ls. destruct R as (_ & R & _). rewrite window_bw in R by lia. split.
  - intros Oc. destruct (Nat.eq_dec m 0) as [Z|Z].
    { rewrite Z in R. assert (Eb : bw text (x + 0) 0 = []) by (destruct (x + 0); reflexivity). rewrite Eb in R. inversion R. lia. }
    destruct (occ_factor key text Hkey o log lrs Hbuilt x (x + m - 1) 1 Oc) as (u & P); try (fold m; lia). fold m in P. replace (S (x + m - 1)) with (x + m) in P by lia. replace (S (m - 1)) with m in P by lia.
    pose proof (path_end (rev key) Hck o log lrs Hbuilt _ _ _ P ltac:(lia)) as Lu. rewrite Lm in Lu. apply path_run in P. apply run_grow in P. rewrite <- (runX_fun _ _ _ _ P R) in *. lia.
  - intros ->. apply run_inside in R; [|lia]. apply path_run in R. replace x with (x + m - m) by lia. apply (bw_full key text Hkey beyond o log lrs Hbuilt); [fold m; lia|]. fold m. eauto.
Qed.
(** no occurrence begins between two consecutive windows *)
Lemma skipped : forall a k s x, a + m <= length text -> reads X text m a k s -> a <= x < next_window m a k -> occurs_at key text x = true -> x <= length text -> x = a /\ k = m.
Proof using All.
  intros a k s x Ha (K & R & St) Hx Oc Lx. unfold next_window in Hx. destruct (Nat.eqb_spec k m) as [Ek|Nk]; [lia|exfalso].
  destruct (occ_factor key text Hkey o log lrs Hbuilt x (a + m - 1) (m - k) Oc) as (u & P); try (fold m; lia). fold m in P. replace (S (a + m - 1)) with (a + m) in P by lia. replace (S (m - (m - k))) with (S k) in P by lia.
  apply path_run in P. apply run_grow in P. rewrite <- window_bw in P by lia. pose proof (window_length text m a Ha) as Lw. set (w := window text m a) in *.
  assert (Sp : firstn (S k) w = firstn k w ++ [nth k w 0%N]).
  { clear - Lw K Nk. assert (L : k < length w) by lia. revert L. generalize w as l. clear. induction k as [|k IH]; intros l L; destruct l as [|c l]; cbn [length] in L; try lia; cbn [firstn nth app]; [reflexivity|]. f_equal. apply IH. lia. }
  rewrite Sp in P. assert (Sr : forall v c a b, run X a (v ++ [c]) b -> exists h, run X a v h /\ X h c b).
  { clear. induction v as [|d v IH]; intros c a b P; cbn [app] in P; inversion P; subst; [match goal with H : run _ _ [] _ |- _ => inversion H; subst end; exists a; split; [constructor|auto]|]. destruct (IH _ _ _ H4) as (h & A & B). exists h. split; auto. econstructor; eauto. }
  destruct (Sr _ _ _ _ P) as (h & A & B). fold E X in A, B. assert (h = s) by (eapply runX_fun; eauto). subst h. apply (St (nth k w 0%N) u); auto. apply nth_error_nth'. lia.
Qed.

Definition bad (a : nat) : Prop := exists x k s, visited X text m a x /\ reads X text m x k s /\ falls_off beyond m k s.
Lemma loop_cases : forall fuel a, length text < a + m + fuel ->
  (bom_loop fuel beyond o m text (a + m - 1) = UB /\ bad a) \/
  (~ bad a /\ exists l, bom_loop fuel beyond o m text (a + m - 1) = Ok l /\ StronglySorted lt l /\ (forall x, In x l <-> visited X text m a x /\ exists s, reads X text m x m s) /\
     forall x, a <= x -> x <= length text -> occurs_at key text x = true -> In x l).
Proof using All.
  induction fuel as [|fuel IH]; intros a Hf; cbn [bom_loop]; pose proof m_pos as Mp; destruct (Nat.ltb_spec (a + m - 1) (length text)) as [L|L]; try lia.
  1,3: right; assert (NV : forall x, ~ visited X text m a x) by (intros x V; pose proof (visited_fits _ _ V); pose proof (visited_ge _ _ V); lia); split; [intros (x & k & s & V & _); exact (NV x V)|]; exists []; split; auto; split; [constructor|]; split; [intros x; split; [intros []|intros (V & _); exact (NV x V)]|];
    intros x A B Oc; exfalso; apply occurs_spec in Oc; auto; fold m in Oc; lia.
  assert (Ha : a + m <= length text) by lia. destruct (window_cases a Ha) as (k & s & R & Out). replace (S (a + m - 1)) with (a + m) by lia. pose proof (next_gt a k s R) as Ng. destruct Out as [(Eb & Nf)|(Eb & Fo)]; rewrite Eb; cbn [bind].
  - pose proof (visited_head a k s) as VH. assert (Hn : length text < next_window m a k + m + fuel) by lia. specialize (IH _ Hn).
    assert (Bad : bad (next_window m a k) <-> bad a).
    { split; intros (x & k' & s' & V & R' & F').
      - exists x, k', s'. split; auto. apply (VH x Ha R). auto.
      - apply (VH x Ha R) in V. destruct V as [->|V]; [|exists x, k', s'; auto]. exfalso. destruct (reads_fun a k s k' s' Ha R R') as (<- & <-). auto. }
    destruct (Nat.eqb_spec (m - k) 0) as [E0|E0].
    + assert (k = m) by (destruct R; lia). subst k. assert (En : next_window m a m = a + 1) by (unfold next_window; now rewrite Nat.eqb_refl). rewrite En in *. replace (a + 1 + m - 1) with (a + m - 1 + 1) in IH by lia.
      destruct IH as [(E1 & B1)|(B1 & l & E1 & S1 & I1 & O1)]; rewrite E1; cbn [bind]; [left; split; auto; now apply Bad|right]. split; [rewrite <- Bad; auto|]. exists (a :: l). split; [f_equal; f_equal; lia|]. split; [|split].
      * constructor; auto. apply Forall_forall. intros x Ix. apply I1 in Ix. destruct Ix as (V & _). apply visited_ge in V. lia.
      * intros x. cbn [In]. rewrite I1, (VH x Ha R). split; [intros [<-|(V & Q)]; [split; eauto|auto]|]. intros ([->|V] & Q); auto.
      * intros x A B Oc. destruct (Nat.eq_dec a x) as [->|Na]; [now left|right; apply O1; auto; lia].
    + assert (En : next_window m a k = a + (m - k)) by (unfold next_window; destruct (Nat.eqb_spec k m); [lia|auto]). rewrite En in *. replace (a + (m - k) + m - 1) with (a + m - 1 + (m - k)) in IH by lia.
      destruct IH as [(E1 & B1)|(B1 & l & E1 & S1 & I1 & O1)]; [left; split; auto; now apply Bad|right]. split; [rewrite <- Bad; auto|]. exists l. split; auto. split; auto. split.
      * intros x. rewrite I1, (VH x Ha R). split; [intros (V & Q); auto|]. intros ([->|V] & (s' & Q)); [exfalso; destruct (reads_fun a k s m s' Ha R Q); lia|eauto].
      * intros x A B Oc. apply O1; auto. destruct (le_lt_dec (a + (m - k)) x); auto. exfalso. destruct (skipped a k s x Ha R ltac:(rewrite En; lia) Oc B); lia.
  - left. split; auto. exists a, k, s. split; [now constructor|auto].
Qed.
End Back.

Theorem bom_exact : forall fuel beyond text key o, key <> [] -> Forall (fun c => (0 < c < 256)%N) key -> bytes_below 256 text -> fo_build fuel (rev key) = Ok o ->
  exists E, factor_oracle (rev key) E /\
    let m := length key in let X := continued E m beyond in
    (match_bom fuel beyond text key = UB <-> exists x k s, visited X text m 0 x /\ reads X text m x k s /\ falls_off beyond m k s) /\
    (match_bom fuel beyond text key = UB \/ exists l, match_bom fuel beyond text key = Ok l /\ StronglySorted lt l /\
       (forall x, In x l <-> visited X text m 0 x /\ exists s, reads X text m x m s) /\
       (forall x, In x (occurrences key text) -> In x l) /\
       forall x s, In x l -> reads X text m x m s -> (In x (occurrences key text) <-> s = m) /\ (~ In x (occurrences key text) <-> m < s)).
Proof.
  intros fuel beyond text key o Nk Hk Ht Eb. destruct (build_Built fuel (rev key) o (rev_bytes key Hk) Eb) as (log & lrs & B). pose proof (nonzero_nth _ (rev_bytes key Hk)) as Hck. exists (tr (rev key) log). split; [exact (tr_oracle (rev key) Hck o log lrs B)|]. cbv zeta.
  unfold match_bom. rewrite Eb. cbn [bind]. pose proof (m_pos key text Hk Nk Ht beyond o log lrs B) as Mp. destruct (loop_cases key text Hk Nk Ht beyond o log lrs B (S (length text)) 0) as [(E1 & Bd)|(Bd & l & E1 & S1 & I1 & O1)]; [lia| |]; cbn [Nat.add] in E1; rewrite E1.
  - split; [split; [intros _; exact Bd|auto]|now left].
  - split; [split; [discriminate|intros C; exfalso; apply Bd; exact C]|]. right. exists l. split; auto. split; auto. split; auto.
    assert (Oc : forall x, In x (occurrences key text) <-> occurs_at key text x = true /\ x <= length text).
    { intros x. unfold occurrences. rewrite filter_In, in_seq. split; [intros (A & C); split; [auto|lia]|intros (A & C); split; [lia|auto]]. }
    split; [intros x Ix; apply Oc in Ix; apply O1; [lia|tauto|tauto]|]. intros x s Ix R. apply I1 in Ix. destruct Ix as (V & _). apply (visited_fits key text Hk Nk Ht beyond o log lrs B) in V. pose proof (full_occ key text Hk Nk Ht beyond o log lrs B x s R V) as F. pose proof (full_bound key text Hk Nk Ht beyond o log lrs B x s R V) as Fb.
    assert (G : In x (occurrences key text) <-> s = length key) by (rewrite Oc, F; split; [tauto|intros; split; [auto|lia]]). split; auto. rewrite G. lia.
Qed.

(** a match reported where the key does not occur *)
Lemma run_beyond : forall E m rest b pre, run (continued E m (pre ++ b ++ rest)) (m + length pre) b (m + length pre + length b).
Proof.
  intros E m rest. induction b as [|c b IH]; intros pre; cbn [length]; [rewrite Nat.add_0_r; constructor|]. econstructor.
  - right. split; [lia|]. split; [reflexivity|]. replace (m + length pre - m) with (length pre) by lia. cbn [app]. rewrite nth_error_app2, Nat.sub_diag by lia. reflexivity.
  - specialize (IH (pre ++ [c])). rewrite app_length in IH. cbn [length] in IH. rewrite <- app_assoc in IH. cbn [app] in IH. cbn [app]. replace (m + length pre + S (length b)) with (m + (length pre + 1) + length b) by lia. replace (S (m + length pre)) with (m + (length pre + 1)) by lia. exact IH.
Qed.
Lemma first_a : forall a k, ~ In a k -> first_end (rev k ++ [a]) [a] (length k + 1).
Proof.
  intros a k Na. split.
  - split; [rewrite app_length, rev_length; cbn [length]; lia|]. exists (rev k). rewrite firstn_all2; [reflexivity|]. rewrite app_length, rev_length. cbn [length]. lia.
  - intros t (Lt & y & Ey). destruct (le_lt_dec (length k + 1) t) as [L|L]; auto. exfalso. rewrite firstn_app in Ey. rewrite rev_length in Ey. replace (t - length k) with 0 in Ey by lia. cbn [firstn] in Ey. rewrite app_nil_r in Ey.
    apply Na. apply in_rev. rewrite <- (firstn_skipn t (rev k)), Ey. apply in_or_app. left. apply in_or_app. right. now left.
Qed.
Theorem bom_false_match : forall fuel a k b rest o, k <> [] -> Forall (fun c => (0 < c < 256)%N) (a :: k) -> ~ In a k -> length b = length k -> bytes_below 256 b -> fo_build fuel (rev (a :: k)) = Ok o ->
  match_bom fuel (b ++ rest) (rev b ++ [a]) (a :: k) = Ok [0] /\ occurrences (a :: k) (rev b ++ [a]) = [].
Proof.
  intros fuel a k b rest o Nk Hk Na Lb Hb Eb. set (text := rev b ++ [a]). set (key := a :: k) in *. assert (Lt : length text = length key) by (unfold text, key; rewrite app_length, rev_length; cbn [length]; lia).
  assert (Ht : bytes_below 256 text) by (unfold text, bytes_below in *; apply Forall_app; split; [now apply Forall_rev|]; constructor; [inversion Hk; lia|constructor]).
  assert (Kp : 1 <= length k) by (destruct k; [congruence|cbn [length]; lia]).
  destruct (build_Built fuel (rev key) o (rev_bytes key Hk) Eb) as (log & lrs & B). pose proof (nonzero_nth _ (rev_bytes key Hk)) as Hck. assert (Nkey : key <> []) by discriminate.
  set (m := length key). assert (Em : m = length k + 1) by (unfold m, key; cbn [length]; lia). set (X := continued (tr (rev key) log) m (b ++ rest)).
  assert (Ea : tr (rev key) log 0 a m).
  { apply (tr_oracle (rev key) Hck o log lrs B). right. split.
    - intros C. apply Na. apply in_rev. unfold key in C. cbn [rev] in C. rewrite nth_error_app1 in C by (rewrite rev_length; lia). eapply nth_error_In; eauto.
    - exists []. split; [split; [constructor|intros; cbn [length]; lia]|]. cbn [app]. rewrite Em. unfold key. cbn [rev]. now apply first_a. }
  assert (Ew : window text m 0 = a :: b).
  { unfold window. cbn [skipn]. rewrite firstn_all2 by lia. unfold text. rewrite rev_app_distr, rev_involutive. reflexivity. }
  assert (R : reads X text m 0 m (m + length b)).
  { split; auto. rewrite Ew. split.
    - rewrite firstn_all2 by (cbn [length]; lia). econstructor; [left; exact Ea|]. pose proof (run_beyond (tr (rev key) log) m rest b []) as Rb. cbn [app length] in Rb. rewrite Nat.add_0_r in Rb. exact Rb.
    - intros c t C. assert (C' : nth_error (a :: b) m <> None) by congruence. apply nth_error_Some in C'. cbn [length] in C'. lia. }
  assert (V0 : forall x, visited X text m 0 x <-> x = 0).
  { intros x. split; [intros V; apply (visited_fits key text Hk Nkey Ht (b ++ rest) o log lrs B) in V; fold m in Lt, V; lia|intros ->; constructor; fold m in Lt; lia]. }
  assert (Oc : occurrences key text = []).
  { unfold occurrences. apply length_zero_iff_nil. destruct (filter _ _) as [|x l] eqn:Ef; [reflexivity|exfalso]. assert (I : In x (filter (occurs_at key text) (seq 0 (S (length text))))) by (rewrite Ef; now left). apply filter_In in I. destruct I as (Is & Io). apply in_seq in Is.
    apply occurs_spec in Io; [|lia]. destruct Io as (L & H). fold m in Lt, L, H. specialize (H (m - 1) ltac:(lia)). assert (x = 0) by lia. subst x. cbn [Nat.add] in H. apply Na.
    assert (E1 : nth (m - 1) text 0%N = a) by (unfold text; rewrite app_nth2 by (rewrite rev_length; lia); rewrite rev_length; replace (m - 1 - length b) with 0 by lia; reflexivity).
    assert (E2 : nth (m - 1) key 0%N = nth (length k - 1) k 0%N) by (unfold key; replace (m - 1) with (S (length k - 1)) by lia; reflexivity). assert (E3 : a = nth (length k - 1) k 0%N) by congruence. rewrite E3. apply nth_In. lia. }
  split; auto. unfold match_bom. rewrite Eb. cbn [bind]. fold m.
  destruct (loop_cases key text Hk Nkey Ht (b ++ rest) o log lrs B (S (length text)) 0 ltac:(lia)) as [(_ & x & k' & s' & V & R' & F & _)|(_ & l & E1 & S1 & I1 & _)].
  - exfalso. apply V0 in V. subst x. destruct (reads_fun key text Hk Nkey Ht (b ++ rest) o log lrs B 0 m (m + length b) k' s' ltac:(cbn [Nat.add]; lia) R R'). fold m in F. lia.
  - cbn [Nat.add] in E1. fold m in E1, I1. fold X in I1. rewrite E1. f_equal. destruct l as [|x l]; [exfalso; apply (I1 0); split; [now apply V0|eauto]|]. assert (x = 0) by (apply V0; apply I1; now left). subst x. destruct l as [|y l]; auto. exfalso. assert (y = 0) by (apply V0; apply I1; right; now left). subst y. inversion S1; subst. inversion H2; subst. lia.
Qed.
