(** The automaton built is the factor oracle of the text, and what a query does on it. *)
From Coq Require Import List NArith ZArith Arith Bool Lia.
From Verif Require Import Base Spec4 Spec20 FoModel FoRing FoFree FoArray FoOracle FoProof.
Import ListNotations.
Local Open Scope nat_scope.

Definition suffix (u v : list N) : Prop := exists a, v = a ++ u.
Lemma suffix_refl : forall u, suffix u u.
Proof. intros u. exists []. reflexivity. Qed.
Lemma suffix_trans : forall u v w, suffix u v -> suffix v w -> suffix u w.
Proof. intros u v w (a & ->) (b & ->). exists (b ++ a). now rewrite app_assoc. Qed.
Lemma suffix_snoc : forall u v c, suffix u v -> suffix (u ++ [c]) (v ++ [c]).
Proof. intros u v c (a & ->). exists a. now rewrite app_assoc. Qed.
Lemma suffix_cons : forall a u, suffix u (a :: u).
Proof. intros a u. exists [a]. reflexivity. Qed.
Lemma suffix_same : forall u v, suffix u v -> length v <= length u -> u = v.
Proof. intros u v (a & ->) L. rewrite app_length in L. destruct a; [reflexivity|cbn [length] in L; lia]. Qed.
Lemma suffix_length : forall u v, suffix u v -> length u <= length v.
Proof. intros u v (a & ->). rewrite app_length. lia. Qed.

Section Exact.
Variable ck : list N.
Hypothesis Hck : forall i, i < length ck -> (0 < nth i ck 0 < 256)%N.
Variable o : foracle.
Variable log : list (nat * nat).
Variable lrs : list nat.
Hypothesis Hb : Built ck o log lrs.
Let m := length ck.
Let I := bt_inv ck o log lrs Hb.
Definition tr (s : nat) (c : N) (t : nat) : Prop := D ck log s t /\ chk ck t = c.

Lemma path_run : forall s w t, path ck log s w t <-> run tr s w t.
Proof.
  intros s w t. split; intros P; induction P as [|? ? ? ? ? H]; try constructor.
  - econstructor; [split; eauto|auto].
  - destruct H. econstructor; eauto.
Qed.
Lemma path_fun : forall w s t t', path ck log s w t -> path ck log s w t' -> t = t'.
Proof using Hb Hck.
  induction w as [|c w IH]; intros s t t' P P'; inversion P; inversion P'; subst; auto. match goal with A : D _ _ s ?x, B : D _ _ s ?y |- _ => assert (x = y) by (eapply (D_det ck Hck o log lrs Hb); eauto; congruence) end. subst. eauto.
Qed.
Lemma path_snoc : forall w s t, path ck log s w t -> w = [] /\ s = t \/ exists v r, w = v ++ [chk ck t] /\ path ck log s v r /\ D ck log r t.
Proof.
  intros w s t P. induction P as [|s c w t u Ds Ec P IH]; [auto|]. right. destruct IH as [(-> & ->)|(v & r & -> & P' & Dr)].
  - exists [], s. subst c. split; auto. split; [constructor|auto].
  - exists (c :: v), r. split; auto. split; [econstructor; eauto|auto].
Qed.
Lemma path_one : forall s t, D ck log s t -> path ck log s [chk ck t] t.
Proof. intros s t H. econstructor; eauto. constructor. Qed.
Definition least (s : nat) (u : list N) : Prop := path ck log 0 u s /\ forall v, path ck log 0 v s -> suffix u v.
(** the shortest word of a state and, without its first letter, that of its suffix link *)
Definition word (i : nat) (u : list N) : Prop := least i u /\ ((i = 0 /\ u = []) \/ (1 <= i /\ exists a u', u = a :: u' /\ path ck log 0 u' (nth i lrs 0))).
Lemma chain_word : forall i, (forall j, j <= i -> j <= m -> exists u, word j u) -> forall k s, sup lrs k s -> s <= i -> s <= m -> forall u, least k u -> forall v, path ck log 0 v s -> suffix u v.
Proof using Hb Hck.
  intros i Hw k s Sk. induction Sk as [s|k s Hs Sk IH]; intros Ls Lm u Hu v Pv; [apply Hu; auto|].
  pose proof (iv_lt _ _ _ _ I s) as Lt. fold m in Lt. specialize (Lt ltac:(lia)). destruct (Hw s Ls Lm) as (us & (Ps & Ms) & [(C & _)|(_ & a & u' & -> & P')]); [lia|].
  eapply suffix_trans; [apply (IH ltac:(lia) ltac:(lia) u Hu u' P')|]. eapply suffix_trans; [apply suffix_cons|]. apply Ms. exact Pv.
Qed.
Lemma words : forall i, i <= m -> exists u, word i u.
Proof using Hb Hck.
  induction i as [i IH] using lt_wf_ind. intros Hi. destruct (Nat.eq_dec i 0) as [->|Ni].
  - exists []. split; [|auto]. split; [constructor|]. intros v _. exists v. now rewrite app_nil_r.
  - destruct (iv_link _ _ _ _ I i) as (k & Dk & Mk & Lk); [fold m; lia|]. pose proof (D_lt ck Hck o log lrs Hb _ _ Dk) as Lt.
    destruct (IH k ltac:(lia) ltac:(lia)) as (u0 & L0 & W0). exists (u0 ++ [chk ck i]).
    assert (Hw : forall j, j <= i - 1 -> j <= m -> exists u, word j u) by (intros; apply IH; lia).
    split; [split|].
    + eapply path_app; [exact (proj1 L0)|]. apply path_one; auto.
    + intros v Pv. apply path_snoc in Pv. destruct Pv as [(_ & C)|(v' & r & -> & P' & Dr)]; [congruence|]. apply suffix_snoc. pose proof (D_lt ck Hck o log lrs Hb _ _ Dr) as Lr. fold m in Lr.
      apply (chain_word (i - 1) Hw k r); auto; lia.
    + right. split; [lia|]. destruct W0 as [(-> & ->)|(K1 & a & u' & -> & P')].
      * exists (chk ck i), []. split; auto. destruct Lk as [(_ & ->)|(C & _)]; [constructor|lia].
      * exists a, (u' ++ [chk ck i]). split; auto. destruct Lk as [(C & _)|(_ & Dl & Cl)]; [lia|]. rewrite <- Cl. eapply path_app; [exact P'|]. apply path_one; auto.
Qed.
Lemma prefix_path : forall i, i <= m -> path ck log 0 (firstn i ck) i.
Proof using Hb Hck.
  intros i Hi. assert (G : forall i s, s + i <= m -> path ck log s (firstn i (skipn s ck)) (s + i)).
  { clear i Hi. induction i as [|i IH]; intros s H; [rewrite Nat.add_0_r; constructor|]. destruct (skipn s ck) as [|c r] eqn:E; [apply (f_equal (@length _)) in E; rewrite skipn_length in E; fold m in E; cbn [length] in E; lia|].
    cbn [firstn]. assert (Er : r = skipn (s + 1) ck /\ nth s ck 0%N = c) by (clear - E; revert s E; induction ck as [|a l IH]; intros s E; [rewrite skipn_nil in E; discriminate|]; destruct s as [|s]; [cbn [skipn] in E; injection E as -> ->; auto|]; cbn [skipn plus nth] in *; auto).
    destruct Er as (-> & Ec). apply path_cons with (s + 1); [left; fold m; lia|unfold chk; now rewrite Nat.add_sub|]. replace (s + S i) with (s + 1 + i) by lia. apply IH. lia. }
  apply (G i 0). lia.
Qed.
(** the suffix links of a position are the states whose shortest words end there *)
Lemma sup_suffix : forall s i u, i <= m -> least s u -> (sup lrs s i <-> suffix u (firstn i ck)).
Proof using Hb Hck.
  intros s i u Hi Hu. split.
  - intros Ss. apply (chain_word i (fun j _ Lj => words j Lj) s i Ss); auto. apply prefix_path; auto.
  - intros (a & E). destruct (suffix_path ck Hck o log lrs Hb i (length a)) as (t & P & St).
    { apply (f_equal (@length _)) in E. rewrite firstn_length, app_length in E. fold m in E. fold m. lia. }
    assert (Eu : firstn (i - length a) (skipn (length a) ck) = u).
    { rewrite <- skipn_firstn_comm, E, skipn_app, skipn_all2, Nat.sub_diag by lia. reflexivity. }
    rewrite Eu in P. rewrite (path_fun _ _ _ _ (proj1 Hu) P). exact St.
Qed.
Lemma firstn_chk : forall t, t < m -> firstn (t + 1) ck = firstn t ck ++ [chk ck (t + 1)].
Proof.
  intros t Ht. unfold chk. rewrite Nat.add_sub. unfold m in Ht. clear - Ht. revert t Ht. induction ck as [|a l IH]; intros t Ht; [cbn [length] in Ht; lia|]. destruct t as [|t]; [reflexivity|]. cbn [plus firstn app nth]. f_equal. apply IH. cbn [length] in Ht. lia.
Qed.
Lemma ends_edge : forall s u c t, least s u -> ends_at ck (u ++ [c]) t <-> (1 <= t <= m /\ sup lrs s (t - 1) /\ chk ck t = c).
Proof using Hb Hck.
  intros s u c t Hu. unfold ends_at. fold m. split.
  - intros (Lt & a & E). destruct (Nat.eq_dec t 0) as [->|Nt]; [apply (f_equal (@length _)) in E; rewrite !app_length in E; cbn [firstn length] in E; lia|].
    assert (F : firstn t ck = firstn (t - 1) ck ++ [chk ck t]) by (replace t with (t - 1 + 1) at 1 3 by lia; apply firstn_chk; lia). rewrite F, app_assoc in E. apply app_inj_tail in E. destruct E as (E & Ec). split; [lia|]. split; auto. apply (sup_suffix s (t - 1) u); [lia|auto|]. now exists a.
  - intros (Lt & Ss & Ec). split; [lia|]. apply (sup_suffix s (t - 1) u) in Ss; [|lia|auto]. destruct Ss as (a & E). exists a. rewrite app_assoc, <- E, <- Ec. replace t with (t - 1 + 1) at 1 3 by lia. apply firstn_chk. lia.
Qed.
Lemma first_edge : forall s u c t, least s u -> first_end ck (u ++ [c]) t <-> tr s c t.
Proof using Hb Hck.
  intros s u c t Hu. unfold first_end.
  assert (G : forall t', ends_at ck (u ++ [c]) t' -> exists t, tr s c t /\ t <= t').
  { intros t' E. apply (ends_edge s u c t' Hu) in E. destruct E as (L' & S' & C'). destruct (iv_B _ _ _ _ I (t' - 1) t') with (q := s) as (x & Dx & Lx & Cx & Sx); [left; fold m; lia|fold m; lia|auto|]. exists x. split; [split; [auto|congruence]|].
    apply (sup_le ck Hck lrs m (iv_lt _ _ _ _ I) x t' Sx). lia. }
  assert (F : forall t, tr s c t -> ends_at ck (u ++ [c]) t).
  { intros x (Dx & Cx). apply (ends_edge s u c x Hu). pose proof (D_lt ck Hck o log lrs Hb _ _ Dx) as Lx. fold m in Lx. split; [lia|]. split; auto. apply (iv_src _ _ _ _ I); auto. fold m. lia. }
  split.
  - intros (E & Mn). destruct (G t E) as (x & Tx & Lx). assert (x = t) by (specialize (Mn x (F x Tx)); lia). now subst.
  - intros T. split; auto. intros t' E. destruct (G t' E) as (x & (Dx & Cx) & Lx). destruct T as (Dt & Ct). assert (x = t) by (eapply (D_det ck Hck o log lrs Hb); eauto; congruence). now subst.
Qed.
Lemma least_shortest : forall s u, shortest tr s u <-> s <= m /\ least s u.
Proof using Hb Hck.
  intros s u. unfold shortest. split.
  - intros (Ru & Mu). apply path_run in Ru. pose proof (path_end ck Hck o log lrs Hb _ _ _ Ru ltac:(lia)) as Ls. fold m in Ls. split; auto. split; auto. destruct (words s Ls) as (x & (Px & Mx) & _). assert (x = u) by (apply suffix_same; [apply Mx; auto|apply Mu; apply path_run; auto]). now subst.
  - intros (_ & Pu & Mu). split; [now apply path_run|]. intros v Rv. apply suffix_length, Mu, path_run, Rv.
Qed.
Lemma nth_error_chk : forall s c, nth_error ck s = Some c <-> s < m /\ chk ck (s + 1) = c.
Proof.
  intros s c. unfold chk. rewrite Nat.add_sub. split.
  - intros E. split; [apply nth_error_Some; congruence|]. now apply nth_error_nth.
  - intros (L & <-). now apply nth_error_nth'.
Qed.
Lemma tr_oracle : factor_oracle ck tr.
Proof using Hb Hck.
  split; [intros s c t (Dt & _); apply (D_lt ck Hck o log lrs Hb _ _ Dt)|]. intros s c t. rewrite nth_error_chk. split.
  - intros T. destruct T as (Dt & Ct) eqn:ET. pose proof (D_lt ck Hck o log lrs Hb _ _ Dt) as Lt. fold m in Lt. destruct (N.eq_dec (chk ck (s + 1)) c) as [E|E].
    + left. split; [split; [lia|auto]|]. eapply (D_det ck Hck o log lrs Hb); eauto; [left; fold m; lia|congruence].
    + right. split; [tauto|]. destruct (words s ltac:(lia)) as (u & Hu & _). exists u. split; [apply least_shortest; split; [lia|auto]|]. apply (first_edge s u c t Hu). split; auto.
  - intros [((L & E) & ->)|(_ & u & Su & Fe)]; [split; [left; fold m; lia|auto]|]. apply least_shortest in Su. apply (first_edge s u c t (proj2 Su)); auto.
Qed.
Lemma image_stuck : forall c, fo_image [] o m c = UB.
Proof using Hb Hck.
  intros c. unfold fo_image. rewrite (bt_ck _ _ _ _ Hb), app_nil_r. replace (m + 1) with (S m) by lia. cbn [fo_check]. rewrite (proj2 (lget_UB _ ck m)) by (fold m; lia). reflexivity.
Qed.
Lemma accept_cases : forall w s, s <= m -> (forall c, In c w -> (c < 256)%N) ->
  (fo_accept_from [] o s w = Ok true /\ exists u, run tr s w u) \/
  (fo_accept_from [] o s w = UB /\ exists v c x, w = v ++ c :: x /\ run tr s v m) \/
  (fo_accept_from [] o s w = Ok false /\ (forall u, ~ run tr s w u) /\ forall v c x, w = v ++ c :: x -> ~ run tr s v m).
Proof using Hb Hck.
  induction w as [|c w IH]; intros s Hs Hw; [left; split; auto; exists s; constructor|]. cbn [fo_accept_from]. destruct (Nat.eq_dec s m) as [->|Ns].
  - rewrite image_stuck. right. left. split; auto. exists [], c, w. split; auto. constructor.
  - destruct (image_ok ck Hck o log lrs Hb [] s c ltac:(fold m; lia)) as (r & Er & Hr); [apply Hw; now left|]. rewrite Er. cbn [bind]. destruct r as [t|].
    + destruct (proj1 (Hr t) eq_refl) as (Dt & Ct). pose proof (D_lt ck Hck o log lrs Hb _ _ Dt) as Lt. fold m in Lt. assert (T : tr s c t) by (split; auto).
      assert (Un : forall t', tr s c t' -> t' = t) by (intros t' (D' & C'); eapply (D_det ck Hck o log lrs Hb); eauto; congruence).
      destruct (IH t ltac:(lia)) as [(E & u & R)|[(E & v & d & x & Ew & R)|(E & N1 & N2)]]; [intros d Hd; apply Hw; now right| | |]; rewrite E.
      * left. split; auto. exists u. econstructor; eauto.
      * right. left. split; auto. exists (c :: v), d, x. split; [cbn [app]; congruence|]. econstructor; eauto.
      * right. right. split; auto. split.
        -- intros u R. inversion R; subst. rewrite (Un t0) in * by auto. eapply N1; eauto.
        -- intros v d x Ew R. destruct v as [|d' v]; [inversion R; subst; congruence|]. cbn [app] in Ew. injection Ew as <- Ew. inversion R; subst. rewrite (Un t0) in * by auto. eapply N2; eauto.
    + assert (No : forall t, ~ tr s c t) by (intros t T; apply Hr in T; discriminate). right. right. split; auto. split.
      * intros u R. inversion R; subst. eapply No; eauto.
      * intros v d x Ew R. destruct v as [|d' v]; [inversion R; subst; congruence|]. cbn [app] in Ew. injection Ew as <- Ew. inversion R; subst. eapply No; eauto.
Qed.
Lemma run_bound : forall w s u, run tr s w u -> s + length w <= u.
Proof using Hb Hck. intros w s u R. apply path_run in R. now apply (path_length ck Hck o log lrs Hb). Qed.
Lemma run_fun : forall w s t t', run tr s w t -> run tr s w t' -> t = t'.
Proof using Hb Hck. intros w s t t' R R'. apply path_run in R, R'. eapply path_fun; eauto. Qed.
Lemma run_past : forall v c x s u, run tr s v m -> ~ run tr s (v ++ c :: x) u.
Proof using Hb Hck.
  intros v c x s u R R'. assert (G : exists y, run tr s v y /\ run tr y (c :: x) u).
  { clear R. revert s R'. induction v as [|d v IH]; intros s R'; [exists s; split; [constructor|auto]|]. cbn [app] in R'. inversion R'; subst. destruct (IH _ H4) as (y & Y1 & Y2). exists y. split; auto. econstructor; eauto. }
  destruct G as (y & Y1 & Y2). rewrite <- (run_fun _ _ _ _ R Y1) in Y2. inversion Y2; subst. destruct H2 as (Dt & _). pose proof (D_lt ck Hck o log lrs Hb _ _ Dt) as Lt. fold m in Lt. lia.
Qed.
End Exact.

Theorem oracle_exact : forall fuel text o, Forall (fun c => (0 < c < 256)%N) text -> fo_build fuel text = Ok o ->
  exists E, factor_oracle text E /\ forall w, bytes_below 256 w ->
    (fo_accept [] o w = Ok true <-> exists s, run E 0 w s) /\
    (fo_accept [] o w = UB <-> exists v c x, w = v ++ c :: x /\ run E 0 v (length text)) /\
    (fo_accept [] o w = Ok false <-> ~ (exists s, run E 0 w s) /\ ~ exists v c x, w = v ++ c :: x /\ run E 0 v (length text)).
Proof.
  intros fuel text o Hb Eb. destruct (build_Built fuel text o Hb Eb) as (log & lrs & B). pose proof (nonzero_nth _ Hb) as Hck. exists (tr text log). split; [exact (tr_oracle text Hck o log lrs B)|]. intros w Hw. unfold bytes_below in Hw. rewrite Forall_forall in Hw.
  assert (Past : (exists s, run (tr text log) 0 w s) -> (exists v c x, w = v ++ c :: x /\ run (tr text log) 0 v (length text)) -> False) by (intros (s & R) (v & c & x & -> & R'); exact (run_past text Hck o log lrs B v c x 0 s R' R)).
  unfold fo_accept. destruct (accept_cases text Hck o log lrs B w 0 ltac:(lia)) as [(E & Y)|[(E & Y)|(E & N1 & N2)]]; [intros c Hc; apply Hw in Hc; exact Hc| | |]; rewrite E; (split; [|split]); split; intros; try discriminate; try tauto.
  - exfalso. destruct H as (s & R). exact (N1 s R).
  - exfalso. destruct H as (v & c & x & Ew & R). exact (N2 v c x Ew R).
  - split; [intros (s & R); exact (N1 s R)|intros (v & c & x & Ew & R); exact (N2 v c x Ew R)].
Qed.
(** the specification determines the automaton *)
Lemma run_same : forall (E E' : nat -> N -> nat -> Prop) T, (forall s c t, E s c t -> s < t) -> (forall t, t < T -> forall s c, E s c t -> E' s c t) -> forall s w u, run E s w u -> u < T -> run E' s w u.
Proof.
  intros E E' T In H s w u R. induction R as [|s c t w u Es R IH]; intros L; [constructor|].
  assert (t <= u) by (clear - In R; induction R as [|s c t w u Es R IH]; [lia|]; apply In in Es; lia). apply run_cons with t; [apply H; [lia|auto]|auto].
Qed.
Theorem oracle_unique : forall text E E', factor_oracle text E -> factor_oracle text E' -> forall s c t, E s c t <-> E' s c t.
Proof.
  intros text E E' (In & H) (In' & H').
  assert (G : forall T t, t < T -> forall s c, E s c t <-> E' s c t); [|intros s c t; apply (G (S t)); lia].
  induction T as [|T IH]; intros t Lt s c; [lia|].
  assert (Sh : forall u, s < t -> shortest E s u <-> shortest E' s u).
  { intros u Ls. unfold shortest. split; intros (R & Mn); (split; [|intros v Rv; apply Mn]).
    - apply (run_same E E' T In); [intros; apply IH; auto|auto|lia].
    - apply (run_same E' E T In'); [intros; apply IH; auto|auto|lia].
    - apply (run_same E' E T In'); [intros; apply IH; auto|auto|lia].
    - apply (run_same E E' T In); [intros; apply IH; auto|auto|lia]. }
  split.
  - intros e. apply In in e as Ls. apply H in e. apply H'. destruct e as [e|(Ne & u & Su & Fe)]; [auto|right]. split; auto. exists u. split; auto. now apply Sh.
  - intros e. apply In' in e as Ls. apply H' in e. apply H. destruct e as [e|(Ne & u & Su & Fe)]; [auto|right]. split; auto. exists u. split; auto. now apply Sh.
Qed.
