(** The assertions of the construction of Samc fail exactly for scattered keys. *)
From Coq Require Import List NArith ZArith Arith Bool Lia ListDec Permutation Sorted.
From Verif Require Import Base Spec5 Spec10 BitUtilModel BitVectorModel SamcModel SamcLevel SamcTree SamcProof SamcSet SamcSet2 SamcSet3 SamcSet4 FoDebugModel SamcDebugModel SamcDebug SamcDebug2.
Import ListNotations.
Local Open Scope nat_scope.
Ltac Zify.zify_post_hook ::= idtac.

(** ** the edges of a level as a list *)
Definition xp (d : nat) (q : nat * list (list N)) : list (N * list (list N)) := match explore (snd q) d with Ok es => es | _ => [] end.
Definition edges_of (d h : nat) (Q : queue) : list edge := flat_map (fun q => map (fun e => (fst e, fst q - h, snd e)) (xp d q)) Q.
Lemma collect_list : forall d h Q, QWf d Q -> collect Q d h = Ok (edges_of d h Q).
Proof.
  intros d h Q HQ. unfold collect. assert (G : forall Q acc, QWf d Q -> foldM (fun acc q => do es <- explore (snd q) d; Ok (acc ++ map (fun e => (fst e, fst q - h, snd e)) es)) Q acc = Ok (acc ++ edges_of d h Q)).
  { clear. induction Q as [|(x & ks) Q IH]; intros acc W; cbn [foldM]; [unfold edges_of; cbn [flat_map]; now rewrite app_nil_r|]. destruct (W x ks (or_introl eq_refl)) as (Nk & Hk). cbn [snd fst]. destruct (explore_full ks d Nk) as (es & E & _); [intros k I; now apply Hk|]. rewrite E. cbn [bind].
    rewrite IH by (intros y ys I; apply (W y ys); now right). f_equal. unfold edges_of. cbn [flat_map]. rewrite <- app_assoc. f_equal. f_equal. unfold xp. cbn [snd fst]. now rewrite E. }
  apply (G Q [] HQ).
Qed.
Lemma edges_keys : forall d h Q, keyset (edges_of d h Q) = flat_map (fun q => map (fun e => (fst e, fst q - h)) (xp d q)) Q.
Proof. intros d h Q. unfold keyset, edges_of. induction Q as [|q Q IH]; cbn [flat_map]; auto. rewrite map_app, IH, map_map. f_equal. Qed.
Lemma nodup_app : forall (A : Type) (a b : list A), NoDup (a ++ b) <-> NoDup a /\ NoDup b /\ forall x, In x a -> ~ In x b.
Proof.
  intros A a b. induction a as [|y a IH]; cbn [app].
  - split; [intros H; repeat split; auto; constructor|tauto].
  - split.
    + intros H. inversion H as [|? ? N1 N2]; subst. apply IH in N2. destruct N2 as (B1 & B2 & B3). split; [constructor; auto; intros I; apply N1; apply in_or_app; auto|]. split; auto. intros x [<-|I]; [intros I; apply N1; apply in_or_app; auto|auto].
    + intros (B1 & B2 & B3). inversion B1 as [|? ? N1 N2]; subst. constructor; [|apply IH; repeat split; auto; intros x I; apply B3; now right]. intros I. apply in_app_or in I. destruct I as [I|I]; auto. apply (B3 y); auto. now left.
Qed.
Lemma edges_nodup : forall d h Q, NoDup (map fst Q) -> (forall x ks, In (x, ks) Q -> h <= x) -> (NoDup (keyset (edges_of d h Q)) <-> forall q, In q Q -> NoDup (map fst (xp d q))).
Proof.
  intros d h Q. rewrite edges_keys. induction Q as [|(x & ks) Q IH]; intros N0 R; cbn [flat_map].
  - split; [intros _ q []|constructor].
  - cbn [map fst] in N0. inversion N0 as [|? ? N1 N2]; subst. rewrite nodup_app, IH; auto; [|intros y ys I; apply (R y ys); now right]. cbn [fst]. 
    assert (X : NoDup (map (fun e : N * list (list N) => (fst e, x - h)) (xp d (x, ks))) <-> NoDup (map fst (xp d (x, ks)))).
    { replace (map (fun e : N * list (list N) => (fst e, x - h)) (xp d (x, ks))) with (map (fun c : N => (c, x - h)) (map fst (xp d (x, ks)))) by now rewrite map_map. split; [apply NoDup_map_inv|]. apply NoDup_map_in. intros a b _ _ E. congruence. }
    rewrite X. split.
    + intros (A & B & _) q [<-|I]; auto.
    + intros A. split; [apply A; now left|]. split; [intros q I; apply A; now right|]. intros (c & i) I I'. apply in_map_iff in I. destruct I as (e & E & _). injection E as <- <-. apply in_flat_map in I'. destruct I' as ((y & ys) & Iy & I'). apply in_map_iff in I'. destruct I' as (e' & E' & _). cbn [fst] in E'. injection E' as _ E'.
      apply N1. pose proof (R x ks (or_introl eq_refl)). pose proof (R y ys (or_intror Iy)). replace x with y by lia. apply in_map_iff. exists (y, ys). auto.
Qed.
Lemma ordered_perm : forall F, (forall e, In e F -> (tc e < 256)%N) -> Permutation (ordered F 256) F.
Proof.
  intros F H. assert (G : forall k, Permutation (ordered F k) (filter (fun e => (tc e <? N.of_nat k)%N) F)).
  { induction k as [|k IH].
    - unfold ordered. cbn [seq flat_map]. rewrite filter_nil; auto. intros e _. apply N.ltb_ge. lia.
    - rewrite ordered_S, IH. unfold mine. clear. induction F as [|e F IH]; cbn [filter]; auto. destruct (N.ltb_spec (tc e) (N.of_nat k)), (N.eqb_spec (tc e) (N.of_nat k)), (N.ltb_spec (tc e) (N.of_nat (S k))); try lia; cbn [app]; auto.
      rewrite <- Permutation_middle. auto. }
  rewrite (G 256), filter_all; auto. intros e I. apply N.ltb_lt. now apply H.
Qed.
Lemma nodup_map_filter : forall (A B : Type) (f : A -> B) g l, NoDup (map f l) -> NoDup (map f (filter g l)).
Proof.
  intros A B f g l. induction l as [|x l IH]; cbn [map filter]; intros H; auto. inversion H as [|? ? N1 N2]; subst. destruct (g x); auto. cbn [map]. constructor; auto. intros I. apply N1. apply in_map_iff in I. destruct I as (y & Y1 & Y2). apply filter_In in Y2. apply in_map_iff. exists y. tauto.
Qed.
Lemma placed_nodup : forall h0 h1 m F st, Placed h0 h1 m F st -> (forall e, In e F -> (tc e < 256)%N) -> (NoDup (map (posn h0 (lv_row st)) (ordered F 256)) <-> NoDup (keyset F)).
Proof.
  intros h0 h1 m F st P H. pose proof (Permutation_map (posn h0 (lv_row st)) (ordered_perm F H)) as PM. set (g := fun k : N * nat => h0 + snd k + N.to_nat (nth (N.to_nat (fst k)) (lv_row st) 0%N)).
  assert (E : map (posn h0 (lv_row st)) F = map g (keyset F)) by (unfold keyset; rewrite map_map; reflexivity).
  split; intros X.
  - apply (Permutation_NoDup PM) in X. rewrite E in X. eapply NoDup_map_inv; eauto.
  - apply (Permutation_NoDup (Permutation_sym PM)). rewrite E. apply NoDup_map_in; auto. intros a b Ia Ib Q. apply in_map_iff in Ia, Ib. destruct Ia as (e & <- & Ie), Ib as (e' & <- & Ie'). apply (pl_inj _ _ _ _ _ P e e' Ie Ie' Q).
Qed.

(** ** prefixes *)
Lemma wp_in : forall p K k, In k (with_prefix p K) <-> In k K /\ exists r, k = p ++ r.
Proof.
  intros p K k. unfold with_prefix. rewrite filter_In. destruct (list_eq_dec N.eq_dec (firstn (length p) k) p) as [E|E].
  - split; [intros (I & _); split; auto; exists (skipn (length p) k); rewrite <- E at 1; symmetry; apply firstn_skipn|tauto].
  - split; [intros (_ & X); discriminate|]. intros (I & r & ->). exfalso. apply E. rewrite firstn_app, Nat.sub_diag, firstn_all. cbn [firstn]. now rewrite app_nil_r.
Qed.
Lemma wp_step : forall p c K, c <> 0%N -> sel (length p) c (with_prefix p K) = with_prefix (p ++ [c]) K.
Proof.
  intros p c K Nc. unfold sel, with_prefix. induction K as [|k K IH]; cbn [filter]; auto.
  assert (X : firstn (length (p ++ [c])) k = p ++ [c] <-> firstn (length p) k = p /\ chd (length p) k = c).
  { rewrite app_length. cbn [length]. replace (length p + 1) with (S (length p)) by lia. split.
    - intros E. split; [apply (f_equal (firstn (length p))) in E; rewrite firstn_firstn, Nat.min_l in E by lia; rewrite E, firstn_app, Nat.sub_diag, firstn_all; cbn [firstn]; apply app_nil_r|].
      unfold chd. assert (L : length (firstn (S (length p)) k) = S (length p)) by (rewrite E, app_length; cbn [length]; lia). rewrite firstn_length in L. rewrite <- (firstn_skipn (S (length p)) k), app_nth1, E by (rewrite firstn_length; lia). rewrite app_nth2, Nat.sub_diag by lia. reflexivity.
    - intros (E & C). assert (L : length p < length k). { apply chd_lt; [rewrite <- E at 1; rewrite firstn_length; lia|congruence]. } unfold chd in C. rewrite <- (firstn_skipn (length p) k) at 1. rewrite E. destruct (skipn (length p) k) as [|x r] eqn:Q; [apply (f_equal (@length N)) in Q; rewrite skipn_length in Q; cbn [length] in Q; lia|].
      assert (x = c). { rewrite <- (firstn_skipn (length p) k), E, app_nth2, Nat.sub_diag, Q in C by lia. exact C. } subst x. rewrite firstn_app. replace (S (length p) - length p) with 1 by lia. rewrite firstn_all2 by lia. reflexivity. }
  destruct (list_eq_dec N.eq_dec (firstn (length p) k) p) as [E|E]; cbn [filter].
  - destruct (N.eqb_spec (chd (length p) k) c) as [C|C], (list_eq_dec N.eq_dec (firstn (length (p ++ [c])) k) (p ++ [c])) as [E'|E']; try tauto. now rewrite IH.
  - destruct (list_eq_dec N.eq_dec (firstn (length (p ++ [c])) k) (p ++ [c])) as [E'|E']; tauto.
Qed.
Definition bad (K : list (list N)) (p : list N) : Prop := split_group p (with_prefix p K) \/ hidden_end p (with_prefix p K).
Lemma bad_spec : forall K p, bad K p <-> broken (length p) (with_prefix p K) \/ shadow (length p) (with_prefix p K).
Proof.
  intros K p. unfold bad. apply or_iff_compat_l. unfold hidden_end, shadow. pose proof (wp_in p K) as W. destruct (with_prefix p K) as [|k0 S]; cbn [hd_error]; [split; [intros (X & _); discriminate|tauto]|].
  destruct (proj1 (W k0) (or_introl eq_refl)) as (_ & r0 & E0). split.
  - intros (X & r & I). injection X as ->. split; auto. exists (p ++ 0%N :: r). split; auto. split; [rewrite app_length; cbn [length]; lia|]. unfold chd. rewrite app_nth2, Nat.sub_diag by lia. reflexivity.
  - intros (L & k & I & Lk & Z). rewrite E0, app_length in L. assert (r0 = []) by (destruct r0; [auto|cbn [length] in L; lia]). subst r0. rewrite app_nil_r in E0. split; [congruence|]. destruct (proj1 (W k) I) as (_ & r & ->). rewrite app_length in Lk. destruct r as [|x r]; [cbn [length] in Lk; lia|]. unfold chd in Z. rewrite app_nth2, Nat.sub_diag in Z by lia. cbn [nth] in Z. subst x. eauto.
Qed.
Lemma bad_ne : forall K p, bad K p -> with_prefix p K <> [].
Proof. intros K p [(i & j & k & A & B & C & _)|(A & _)] E; rewrite E in *; cbn [length hd_error] in *; [lia|discriminate]. Qed.
Definition nz (p : list N) : Prop := Forall (fun c => c <> 0%N) p.

(** ** the levels *)
Section Levels.
Variable K : list (list N).
Hypothesis HB : forall k, In k K -> bytes k.
Record QInv (d h0 h1 : nat) (M : list (nat * N)) (Q : queue) : Prop := {
  qi_nodup : NoDup (map fst Q);
  qi_node : forall x ks, In (x, ks) Q -> exists p, length p = d /\ nz p /\ ks = with_prefix p K /\ ks <> [];
  qi_all : forall p, length p = d -> nz p -> with_prefix p K <> [] -> exists x, In (x, with_prefix p K) Q;
  qi_range : forall x ks, In (x, ks) Q -> h0 <= x < h1;
  qi_val : forall x ks, In (x, ks) Q -> exists c, c <> 0%N /\ In (x, c) M;
  qi_spots : NoDup (spots M);
  qi_low : forall p c, In (p, c) M -> p < h1
}.
Lemma nodup_functional : forall M, NoDup (spots M) -> functional M.
Proof.
  intros M. induction M as [|(q & y) M IH]; intros N0 p c c' I I'; [destruct I|]. cbn [spots map fst] in N0. inversion N0 as [|? ? N1 N2]; subst. destruct I as [I|I], I' as [I'|I'].
  - congruence.
  - injection I as -> ->. exfalso. apply N1. apply in_map_iff. exists (p, c'). auto.
  - injection I' as -> ->. exfalso. apply N1. apply in_map_iff. exists (p, c). auto.
  - eapply IH; eauto.
Qed.
Lemma QInv_wf : forall d h0 h1 M Q, QInv d h0 h1 M Q -> QWf d Q.
Proof.
  intros d h0 h1 M Q I x ks Ix. destruct (qi_node _ _ _ _ _ I x ks Ix) as (p & Lp & Zp & -> & Ne). split; auto. intros k Ik. apply wp_in in Ik. destruct Ik as (Ik & r & ->). split; [rewrite app_length; lia|auto].
Qed.
Lemma QInv_xp : forall d h0 h1 M Q x ks, QInv d h0 h1 M Q -> In (x, ks) Q -> exists p, length p = d /\ nz p /\ ks = with_prefix p K /\ (forall c, In c (map fst (xp d (x, ks))) <-> exists k, In k ks /\ chd d k = c) /\ 
  (NoDup (map fst (xp d (x, ks))) <-> ~ bad K p) /\ (NoDup (map fst (xp d (x, ks))) -> forall c g, c <> 0%N -> In (c, g) (xp d (x, ks)) -> g = with_prefix (p ++ [c]) K).
Proof.
  intros d h0 h1 M Q x ks I Ix. destruct (qi_node _ _ _ _ _ I x ks Ix) as (p & Lp & Zp & E & Ne). exists p. split; auto. split; auto. split; auto. destruct (explore_full ks d Ne) as (es & Ee & Ec & En & Eg).
  { intros k Ik. apply (QInv_wf _ _ _ _ _ I x ks Ix). exact Ik. }
  unfold xp. cbn [snd]. rewrite Ee. split; auto. split; [rewrite En, bad_spec, Lp, <- E; reflexivity|]. intros ND c g Nc Ig. rewrite <- wp_step by auto. rewrite Lp, <- E. apply Eg; auto.
Qed.
Theorem levels_debug : forall legacy fuel d h0 h1 head codes M Q R, QInv d h0 h1 M Q -> build_levels legacy fuel d h0 h1 head codes M Q = Ok R ->
  ((forall p, nz p -> d <= length p -> ~ bad K p) -> build_levels_d legacy fuel d h0 h1 head codes M Q = Ok R) /\ ((exists p, nz p /\ d <= length p /\ bad K p) -> build_levels_d legacy fuel d h0 h1 head codes M Q = Throw).
Proof.
  intros legacy. induction fuel as [|fuel IH]; intros d h0 h1 head codes M Q R I E.
  - destruct Q as [|q Q]; [|discriminate E]. cbn [build_levels build_levels_d] in *. split; auto. intros (p & Zp & Lp & Bp). exfalso. pose proof (bad_ne _ _ Bp) as Ne. destruct (with_prefix p K) as [|k S] eqn:W; [congruence|]. assert (Ik : In k (with_prefix p K)) by (rewrite W; now left). apply wp_in in Ik. destruct Ik as (Ik & r & ->).
    destruct (qi_all _ _ _ _ _ I (firstn d p)) as (x & []); [rewrite firstn_length; lia|apply Forall_forall; intros y Hy; unfold nz in Zp; rewrite Forall_forall in Zp; apply Zp; rewrite <- (firstn_skipn d p); apply in_or_app; auto|]. intros X. assert (J : In (p ++ r) (with_prefix (firstn d p) K)) by (apply wp_in; split; auto; exists (skipn d p ++ r); now rewrite app_assoc, firstn_skipn). rewrite X in J. destruct J.
  - destruct Q as [|q Q].
    { cbn [build_levels build_levels_d] in *. split; auto. intros (p & Zp & Lp & Bp). exfalso. pose proof (bad_ne _ _ Bp) as Ne. destruct (with_prefix p K) as [|k S] eqn:W; [congruence|]. assert (Ik : In k (with_prefix p K)) by (rewrite W; now left). apply wp_in in Ik. destruct Ik as (Ik & r & ->).
      destruct (qi_all _ _ _ _ _ I (firstn d p)) as (x & []); [rewrite firstn_length; lia|apply Forall_forall; intros y Hy; unfold nz in Zp; rewrite Forall_forall in Zp; apply Zp; rewrite <- (firstn_skipn d p); apply in_or_app; auto|]. intros X. assert (J : In (p ++ r) (with_prefix (firstn d p) K)) by (apply wp_in; split; auto; exists (skipn d p ++ r); now rewrite app_assoc, firstn_skipn). rewrite X in J. destruct J. }
    cbn [build_levels build_levels_d] in *. pose proof (QInv_wf _ _ _ _ _ I) as WF. set (QQ := q :: Q) in *. clearbody QQ. clear q Q. rename QQ into Q.
    rewrite (collect_agrees M Q d h0 (nodup_functional M (qi_spots _ _ _ _ _ I)) (qi_val _ _ _ _ _ I)). rewrite (collect_list d h0 Q WF) in *. cbn [bind] in *. set (F := edges_of d h0 Q) in *.
    assert (HF : forall e, In e F -> exists x ks p, In (x, ks) Q /\ In (tc e, snd e) (xp d (x, ks)) /\ tid e = x - h0 /\ length p = d /\ nz p /\ ks = with_prefix p K).
    { intros e Ie. unfold F, edges_of in Ie. apply in_flat_map in Ie. destruct Ie as ((x & ks) & Ix & Ie). apply in_map_iff in Ie. destruct Ie as ((c & g) & <- & Ig). cbn [fst snd] in *. destruct (qi_node _ _ _ _ _ I x ks Ix) as (p & Lp & Zp & Ek & _). exists x, ks, p. cbn [tc tid fst snd]. auto 10. }
    assert (HT : forall e, In e F -> (tc e < 256)%N /\ h0 + tid e < h1).
    { intros e Ie. destruct (HF e Ie) as (x & ks & p & Ix & Ig & Et & Lp & Zp & Ek). pose proof (qi_range _ _ _ _ _ I x ks Ix). split; [|lia]. destruct (QInv_xp _ _ _ _ _ x ks I Ix) as (p' & _ & _ & _ & Xc & _). assert (Hc : In (tc e) (map fst (xp d (x, ks)))) by (apply in_map_iff; exists (tc e, snd e); auto). apply Xc in Hc. destruct Hc as (k & Ik & <-). apply byte_chd. destruct (WF x ks Ix) as (_ & X). now apply X. }
    destruct (level_lists legacy h0 h1 F M HT) as (st & Es & P & Mm & Qm). unfold start in Es. rewrite Es in E. cbn [bind] in E.
    destruct (level_agrees legacy h0 h1 F (seq 0 256) _ st Es) as ((ext & Xe) & AG). cbn [lv_map] in AG, Xe. destruct (AG (qi_spots _ _ _ _ _ I)) as (AG1 & AG2).
    assert (NS : NoDup (spots (lv_map st)) <-> forall x, In x Q -> NoDup (map fst (xp d x))).
    { rewrite <- (edges_nodup d h0 Q (qi_nodup _ _ _ _ _ I)) by (intros x ks Ix; now apply (qi_range _ _ _ _ _ I x ks Ix)). fold F. rewrite <- (placed_nodup h0 h1 M F st P) by (intros e Ie; now apply HT). rewrite Mm. unfold spots. rewrite map_app, map_map. cbn [fst]. rewrite nodup_app. change (map (fun x : edge => posn h0 (lv_row st) x)) with (map (posn h0 (lv_row st))). split; [tauto|]. intros N1. split; [apply (qi_spots _ _ _ _ _ I)|]. split; auto.
      intros y Iy Iy'. apply in_map_iff in Iy. destruct Iy as ((y' & c) & <- & Iy). apply (qi_low _ _ _ _ _ I) in Iy. apply in_map_iff in Iy'. destruct Iy' as (e & Ye & Ie). apply ordered_in in Ie. pose proof (pl_range _ _ _ _ _ P e (proj1 Ie)). cbn [fst] in *. lia. }
    assert (NEXT : NoDup (spots (lv_map st)) -> QInv (S d) h1 (h1 + lv_max st) (lv_map st) (lv_queue st)).
    { intros N1. assert (NP : NoDup (map (posn h0 (lv_row st)) (ordered F 256))). { rewrite Mm in N1. unfold spots in N1. rewrite map_app, map_map in N1. apply nodup_app in N1. tauto. } pose proof (proj1 NS N1) as NX. constructor.
      - rewrite Qm, map_map. cbn [fst]. apply (nodup_map_filter _ _ (posn h0 (lv_row st))). exact NP.
      - intros y g Iy. apply (pl_queue _ _ _ _ _ P) in Iy. destruct Iy as (e & Ie & _ & Nc & -> & ->). unfold F, edges_of in Ie. apply in_flat_map in Ie. destruct Ie as ((x & ks) & Ix & Ie). apply in_map_iff in Ie. destruct Ie as ((c & g) & <- & Ig). cbn [tc tid fst snd] in *.
        destruct (QInv_xp _ _ _ _ _ x ks I Ix) as (p & Lp & Zp & Ek & Xc & _ & Xg). exists (p ++ [c]). split; [rewrite app_length; cbn [length]; lia|]. split; [apply Forall_app; split; auto|]. rewrite <- (Xg (NX _ Ix) c g Nc Ig). split; auto. rewrite (Xg (NX _ Ix) c g Nc Ig). assert (Hc : In c (map fst (xp d (x, ks)))) by (apply in_map_iff; exists (c, g); auto). apply Xc in Hc. destruct Hc as (k & Ik & Ck). intros Z.
        assert (J : In k (with_prefix (p ++ [c]) K)); [|rewrite Z in J; destruct J]. rewrite <- wp_step by auto. unfold sel. apply filter_In. rewrite Lp, <- Ek. split; auto. now apply N.eqb_eq.
      - intros p' Lp' Zp' Ne. destruct (exists_last (l := p')) as (p & c & ->); [intros ->; discriminate|]. rewrite app_length in Lp'. cbn [length] in Lp'. apply Forall_app in Zp'. destruct Zp' as (Zp & Zc). assert (Nc : c <> 0%N) by (now inversion Zc).
        destruct (with_prefix (p ++ [c]) K) as [|k S] eqn:W; [congruence|]. rewrite <- W. assert (J : In k (sel (length p) c (with_prefix p K))) by (rewrite wp_step, W by auto; now left). unfold sel in J. apply filter_In in J. destruct J as (J1 & J2). apply N.eqb_eq in J2.
        destruct (qi_all _ _ _ _ _ I p) as (x & Ix); [lia|auto|intros Z; rewrite Z in J1; destruct J1|]. destruct (QInv_xp _ _ _ _ _ _ _ I Ix) as (p2 & Lp2 & Zp2 & Ek & Xc & _ & Xg). assert (Hc : In c (map fst (xp d (x, with_prefix p K)))) by (apply Xc; exists k; split; auto; rewrite <- J2; f_equal; lia).
        apply in_map_iff in Hc. destruct Hc as ((c' & g) & Q1 & Ig). cbn [fst] in Q1. subst c'. pose proof (Xg (NX _ Ix) c g Nc Ig) as Eg. rewrite <- wp_step in Eg by auto. rewrite <- Ek in Eg. replace (length p2) with (length p) in Eg by lia. rewrite wp_step in Eg by auto.
        exists (posn h0 (lv_row st) (c, x - h0, g)). rewrite <- Eg. assert (Ie : In (c, x - h0, g) F) by (unfold F, edges_of; apply in_flat_map; exists (x, with_prefix p K); split; auto; apply in_map_iff; exists (c, g); auto). apply (pl_queue _ _ _ _ _ P). exists (c, x - h0, g). split; auto. split; [now apply HT in Ie|]. auto.
      - intros y g Iy. apply (pl_queue _ _ _ _ _ P) in Iy. destruct Iy as (e & Ie & _ & _ & _ & ->). apply (pl_range _ _ _ _ _ P e Ie).
      - intros y g Iy. apply (pl_queue _ _ _ _ _ P) in Iy. destruct Iy as (e & Ie & Tc & Nc & _ & ->). exists (tc e). split; auto. apply (pl_map _ _ _ _ _ P). right. exists e. auto.
      - exact N1.
      - intros y c Iy. apply (pl_map _ _ _ _ _ P) in Iy. destruct Iy as [Iy|(e & Ie & _ & _ & ->)]; [apply (qi_low _ _ _ _ _ I) in Iy; lia|apply (pl_range _ _ _ _ _ P e Ie)]. }
    split.
    + intros NB. assert (N1 : NoDup (spots (lv_map st))). { apply NS. intros (x & ks) Ix. destruct (QInv_xp _ _ _ _ _ x ks I Ix) as (p & Lp & Zp & _ & _ & Xn & _). apply Xn. apply NB; auto. lia. }
      rewrite (AG1 N1). cbn [bind]. apply (IH _ _ _ _ _ _ _ _ (NEXT N1) E). intros p Zp Lp. apply NB; auto. lia.
    + intros (p & Zp & Lp & Bp). destruct (nodup_dec (spots (lv_map st))) as [N1|N1]; [|rewrite (AG2 N1); reflexivity].
      rewrite (AG1 N1). cbn [bind]. apply (IH _ _ _ _ _ _ _ _ (NEXT N1) E). exists p. split; auto. split; auto. destruct (Nat.eq_dec (length p) d) as [Ld|]; [|lia]. exfalso.
      pose proof (bad_ne _ _ Bp) as Ne. destruct (qi_all _ _ _ _ _ I p Ld Zp Ne) as (x & Ix). pose proof (proj1 NS N1 _ Ix) as NX. destruct (explore_full (with_prefix p K) d Ne) as (es & Ee & _ & En & _); [intros k Ik; now apply (WF _ _ Ix)|]. unfold xp in NX. cbn [snd] in NX. rewrite Ee in NX. apply En in NX. apply NX. rewrite <- Ld. now apply bad_spec.
Qed.
End Levels.
Theorem samc_debug : forall K, K <> [] -> (forall k, In k K -> bytes k) -> forall legacy fuel, (forall k, In k K -> length (c_string k) < fuel) ->
  exists s, sm_build legacy fuel K = Ok s /\ (scattered K -> sm_build_d legacy fuel K = Throw) /\ (~ scattered K -> sm_build_d legacy fuel K = Ok s).
Proof.
  intros K NK HB legacy fuel HF. destruct (accept_any K NK HB legacy fuel HF) as (s & E & _). exists s. split; auto. unfold sm_build in E. apply bind_Ok_inv in E. destruct E as (((hd & co) & R) & E1 & E2).
  assert (WK : with_prefix [] K = K) by (unfold with_prefix; apply filter_all; intros k _; reflexivity).
  destruct (levels_debug K HB legacy fuel 0 0 1 [0; 1] [] [(0, 94%N)] [(0, K)] (hd, co, R)) with (2 := E1) as (D1 & D2).
  { constructor.
    - repeat constructor. intros [].
    - intros x ks [X|[]]. injection X as <- <-. exists []. split; auto. split; [constructor|]. split; auto.
    - intros p Lp _ _. destruct p; [|discriminate]. exists 0. left. now rewrite WK.
    - intros x ks [X|[]]. injection X as <- _. lia.
    - intros x ks [X|[]]. injection X as <- _. exists 94%N. split; [discriminate|now left].
    - repeat constructor. intros [].
    - intros p c [X|[]]. injection X as <- _. lia. }
  unfold sm_build_d. split.
  - intros (p & Zp & Bp). rewrite D2; [reflexivity|]. exists p. split; auto. split; [lia|exact Bp].
  - intros NS. rewrite D1; [cbn [bind]; exact E2|]. intros p Zp _ Bp. apply NS. exists p. auto.
Qed.

(** sorted keys without zero bytes, repeated or not, are never scattered *)
Lemma sorted_nth : forall S i j, StronglySorted lex_le S -> i < j -> j < length S -> lex_le (nth i S []) (nth j S []).
Proof.
  intros S. induction S as [|x S IH]; intros i j H Hij Hj; [cbn [length] in Hj; lia|]. inversion H as [|? ? H1 H2]; subst. destruct j as [|j]; [lia|]. cbn [length] in Hj. destruct i as [|i]; cbn [nth].
  - rewrite Forall_forall in H2. apply H2. apply nth_In. lia.
  - apply IH; auto; lia.
Qed.
Lemma le_byte : forall p a b, lex_le (p ++ a) (p ++ b) -> (nth 0 a 0 <= nth 0 b 0)%N.
Proof.
  intros p a b [E|E].
  - apply app_inv_head in E. subst. lia.
  - apply lex_cancel in E. destruct a as [|x a], b as [|y b]; cbn [lex_lt nth] in *; try tauto; try lia.
Qed.
Theorem sorted_kept : forall K, StronglySorted lex_le K -> (forall k, In k K -> ~ In 0%N k) -> ~ scattered K.
Proof.
  intros K HS HZ (p & Zp & [(i & j & k & Hij & Hjk & Hk & E1 & E2)|(_ & r & I)]).
  - set (S := with_prefix p K) in *. assert (HS' : StronglySorted lex_le S) by (apply SS_filter; exact HS). assert (X : forall t, t < length S -> exists q, nth t S [] = p ++ q). { intros t Ht. apply (nth_In S []) in Ht. apply wp_in in Ht. destruct Ht as (_ & q & ->). eauto. }
    destruct (X i) as (qi & Ei); [lia|]. destruct (X j) as (qj & Ej); [lia|]. destruct (X k) as (qk & Ek); [lia|]. pose proof (sorted_nth S i j HS' Hij ltac:(lia)) as L1. pose proof (sorted_nth S j k HS' Hjk Hk) as L2. rewrite Ei, Ej, Ek in *. apply le_byte in L1. apply le_byte in L2. unfold next_byte in *. rewrite !app_nth2, !Nat.sub_diag in * by lia. apply E2. lia.
  - apply wp_in in I. destruct I as (I & _). apply (HZ _ I). apply in_or_app. right. now left.
Qed.
