(** Proofs about TrieModel. *)
From Coq Require Import List NArith Arith Bool Lia Sorted.
From Verif Require Import Base Spec5 TrieModel.
Import ListNotations.
Local Open Scope nat_scope.

(** [P] gives the string leading to each node *)
Record Str (ns : list node) (P : list (list N)) : Prop := {
  st_len : length P = length ns;
  st_root : nth_error P 0 = Some [];
  st_nodup : NoDup P;
  st_sorted : forall i n, nth_error ns i = Some n -> StronglySorted N.lt (map fst (nd_edges n));
  st_edges : forall i n p, nth_error ns i = Some n -> nth_error P i = Some p -> forall c j, In (c, j) (nd_edges n) <-> nth_error P j = Some (p ++ [c]);
  st_closed : forall p c, In (p ++ [c]) P -> In p P
}.
Definition item_of (ns : list node) (i : nat) : option nat := match nth_error ns i with Some n => nd_item n | None => None end.

Lemma lget_nth_error : forall (A : Type) (l : list A) i x, nth_error l i = Some x -> lget l i = Ok x.
Proof. intros A l i x H. unfold lget. rewrite H. reflexivity. Qed.
Lemma nth_error_lt : forall (A : Type) (l : list A) i x, nth_error l i = Some x -> i < length l.
Proof. intros. apply nth_error_Some. congruence. Qed.
Lemma nth_error_ex : forall (A : Type) (l : list A) i, i < length l -> exists x, nth_error l i = Some x.
Proof. intros A l i H. destruct (nth_error l i) eqn:E; [eauto|]. apply nth_error_None in E. lia. Qed.
Lemma NoDup_nth_error_inj : forall (A : Type) (l : list A) i j x, NoDup l -> nth_error l i = Some x -> nth_error l j = Some x -> i = j.
Proof. intros A l i j x H E F. rewrite NoDup_nth_error in H. apply H; [apply (nth_error_lt _ _ _ _ E)|congruence]. Qed.

Lemma Str_new : Str [nd_new] [[]].
Proof.
  split.
  - reflexivity.
  - reflexivity.
  - constructor; [intros []|constructor].
  - intros [|[|i]] n H; try discriminate. injection H as <-. constructor.
  - intros [|[|i]] n p H K; try discriminate. injection H as <-. injection K as <-. intros c j. split; [intros []|]. destruct j as [|[|j]]; discriminate.
  - intros p c [H|[]]. destruct p; discriminate.
Qed.

Lemma sorted_unique : forall l (c : N) (i j : nat), StronglySorted N.lt (map fst l) -> In (c, i) l -> In (c, j) l -> i = j.
Proof.
  induction l as [|[d k] l IH]; intros c i j S H K; [destruct H|]. cbn [map fst] in S. inversion S as [|x y S1 F]; subst.
  rewrite Forall_forall in F. destruct H as [H|H], K as [K|K].
  - congruence.
  - injection H as -> ->. specialize (F c (in_map fst _ _ K)). lia.
  - injection K as -> ->. specialize (F c (in_map fst _ _ H)). lia.
  - eapply IH; eauto.
Qed.
Section Step.
Variables (ns : list node) (P : list (list N)).
Hypothesis HS : Str ns P.
Lemma target_spec : forall i n p c, nth_error ns i = Some n -> nth_error P i = Some p ->
  (nd_target n c <> 0 /\ nth_error P (nd_target n c) = Some (p ++ [c])) \/ (nd_target n c = 0 /\ ~ In (p ++ [c]) P).
Proof using HS.
  intros i n p c En Ep. unfold nd_target. destruct (find _ (nd_edges n)) as [[d j]|] eqn:F.
  - apply find_some in F. destruct F as [I Q]. apply N.eqb_eq in Q. cbn [fst] in Q. subst d. cbn [snd].
    apply (st_edges _ _ HS _ _ _ En Ep) in I. left. split; auto. intros ->. rewrite (st_root _ _ HS) in I. destruct p; discriminate.
  - right. split; auto. intros I. apply In_nth_error in I. destruct I as (j & I). apply (st_edges _ _ HS _ _ _ En Ep) in I.
    apply (find_none _ _ F) in I. cbn [fst] in I. rewrite N.eqb_refl in I. discriminate.
Qed.
Lemma edge_add_in : forall l c j, ~ In c (map fst l) -> forall d k, In (d, k) (edge_add l c j) <-> (d, k) = (c, j) \/ In (d, k) l.
Proof.
  clear. induction l as [|[e i] l IH]; intros c j H d k; cbn [edge_add]. { cbn [In]. intuition congruence. }
  destruct (c <? e)%N. { cbn [In]. intuition congruence. }
  destruct (N.eqb_spec c e) as [->|Q]. { exfalso. apply H. left. reflexivity. }
  cbn [In]. rewrite IH. { tauto. } intros I. apply H. right. exact I.
Qed.
Lemma edge_add_sorted : forall l c j, ~ In c (map fst l) -> StronglySorted N.lt (map fst l) -> StronglySorted N.lt (map fst (edge_add l c j)).
Proof.
  clear. induction l as [|[e i] l IH]; intros c j H S; cbn [edge_add]. { repeat constructor. }
  destruct (N.ltb_spec c e) as [L|L].
  - cbn [map fst] in *. constructor; auto. inversion S as [|x y S1 F]; subst. constructor; auto. eapply Forall_impl; [|exact F]. cbn. intros; lia.
  - destruct (N.eqb_spec c e) as [->|Q]; auto. cbn [map fst] in *. inversion S as [|x y S1 F]; subst. constructor.
    + apply IH; auto. intros I. apply H. right. exact I.
    + rewrite Forall_forall in *. intros x I. apply in_map_iff in I. destruct I as ([d k] & <- & I). apply edge_add_in in I.
      * cbn [fst]. destruct I as [I|I]; [injection I as -> ->; lia|]. apply F. apply (in_map fst _ _ I).
      * intros I'. apply H. right. exact I'.
Qed.
Lemma step_ok : forall i p c, nth_error P i = Some p -> exists ns' i' e, insert_step (ns, i) c = Ok (ns', i') /\ Str ns' (P ++ e) /\ nth_error (P ++ e) i' = Some (p ++ [c]) /\
  (forall q, In q (P ++ e) <-> In q P \/ q = p ++ [c]) /\ (forall j, item_of ns' j = item_of ns j).
Proof using HS.
  intros i p c Ep. pose proof (nth_error_lt _ _ _ _ Ep) as Li. rewrite (st_len _ _ HS) in Li. destruct (nth_error_ex _ _ _ Li) as (n & En).
  cbn [insert_step]. rewrite (lget_nth_error _ _ _ _ En). cbn [bind].
  destruct (target_spec i n p c En Ep) as [[T1 T2]|[T1 T2]].
  - destruct (Nat.eqb_spec (nd_target n c) 0) as [|_]; [congruence|]. cbn [negb]. exists ns, (nd_target n c), []. rewrite app_nil_r.
    split; auto. split; auto. split; auto. split; auto. intros q. split; auto. intros [Q| -> ]; auto. eapply nth_error_In; eauto.
  - rewrite T1, Nat.eqb_refl. cbn [negb]. rewrite lset_Ok by auto. cbn [bind].
    assert (NI : ~ In c (map fst (nd_edges n))).
    { intros I. apply in_map_iff in I. destruct I as ([d j] & E & I). cbn [fst] in E. subst d. apply (st_edges _ _ HS _ _ _ En Ep) in I. apply T2. eapply nth_error_In; eauto. }
    assert (LP := st_len _ _ HS).
    assert (LN : nth_error (P ++ [p ++ [c]]) (length ns) = Some (p ++ [c])). { rewrite nth_error_app2 by lia. rewrite LP, Nat.sub_diag. reflexivity. }
    exists (upd ns i (nd_add n c (length ns)) ++ [nd_new]), (length ns), [p ++ [c]]. split; auto. split.
    + split.
      * rewrite !app_length, upd_length, LP. reflexivity.
      * rewrite nth_error_app1 by lia. apply (st_root _ _ HS).
      * rewrite <- (rev_involutive (P ++ [p ++ [c]])). apply NoDup_rev. rewrite rev_app_distr. cbn [rev app]. constructor; [rewrite <- in_rev; auto|apply NoDup_rev; apply (st_nodup _ _ HS)].
      * intros j m Em. destruct (lt_dec j (length ns)) as [L|L].
        -- rewrite nth_error_app1 in Em by (rewrite upd_length; auto). rewrite nth_error_upd in Em. destruct (Nat.eqb_spec j i) as [->|Q].
           ++ cbn [andb] in Em. destruct (i <? length ns) eqn:B in Em; [|apply Nat.ltb_ge in B; lia]. injection Em as <-. cbn [nd_add nd_edges]. apply edge_add_sorted; auto. eapply st_sorted; eauto.
           ++ cbn [andb] in Em. eapply st_sorted; eauto.
        -- rewrite nth_error_app2 in Em by (rewrite upd_length; lia). rewrite upd_length in Em. destruct (j - length ns) as [|k]; [|destruct k; discriminate]. injection Em as <-. constructor.
      * intros j m q Em Eq d k. destruct (lt_dec j (length ns)) as [L|L].
        -- rewrite nth_error_app1 in Em by (rewrite upd_length; auto). rewrite nth_error_app1 in Eq by lia. rewrite nth_error_upd in Em.
           assert (X : nth_error (P ++ [p ++ [c]]) k = Some (q ++ [d]) <-> (k = length ns /\ p ++ [c] = q ++ [d]) \/ nth_error P k = Some (q ++ [d])).
           { destruct (lt_eq_lt_dec k (length ns)) as [[B|B]|B].
             - rewrite nth_error_app1 by lia. intuition lia.
             - subst k. rewrite LN. split; [intros X; injection X as X; auto|]. intros [[_ X]|X]; [congruence|]. apply nth_error_lt in X. lia.
             - rewrite nth_error_app2 by lia. destruct (k - length P) as [|u] eqn:U; [lia|]. split; [destruct u; discriminate|]. intros [[X _]|X]; [lia|]. apply nth_error_lt in X. lia. }
           rewrite X. destruct (Nat.eqb_spec j i) as [->|Q].
           ++ cbn [andb] in Em. destruct (i <? length ns) eqn:B in Em; [|apply Nat.ltb_ge in B; lia]. injection Em as <-. rewrite Ep in Eq. injection Eq as <-. cbn [nd_add nd_edges].
              rewrite edge_add_in by auto. rewrite (st_edges _ _ HS _ _ _ En Ep). split.
              ** intros [E|E]; [injection E as -> ->; auto|auto].
              ** intros [[-> E]|E]; [|auto]. apply app_inv_head in E. injection E as ->. auto.
           ++ cbn [andb] in Em. rewrite (st_edges _ _ HS _ _ _ Em Eq). split; auto. intros [[_ E]|E]; auto.
              apply app_inj_tail in E. destruct E as [E _]. subst q. exfalso. apply Q. eapply NoDup_nth_error_inj; eauto using st_nodup.
        -- rewrite nth_error_app2 in Em by (rewrite upd_length; lia). rewrite upd_length in Em. destruct (j - length ns) as [|u] eqn:U; [|destruct u; discriminate]. injection Em as <-.
           assert (j = length ns) by lia. subst j. rewrite LN in Eq. injection Eq as <-. split; [intros []|]. intros E. exfalso.
           apply nth_error_In in E. apply in_app_or in E. destruct E as [E|[E|[]]].
           ++ apply T2. eapply st_closed; eauto.
           ++ apply (f_equal (@length N)) in E. rewrite !app_length in E. cbn [length] in E. lia.
      * intros q d I. apply in_app_or in I. apply in_or_app. left. destruct I as [I|[I|[]]]; [eapply st_closed; eauto|]. apply app_inj_tail in I. destruct I as [<- _]. eapply nth_error_In; eauto.
    + split; auto. split; [intros q; rewrite in_app_iff; cbn [In]; intuition congruence|].
      intros j. unfold item_of. destruct (lt_eq_lt_dec j (length ns)) as [[L|L]|L].
      * rewrite nth_error_app1 by (rewrite upd_length; auto). rewrite nth_error_upd. destruct (Nat.eqb_spec j i) as [->|Q]; [|reflexivity]. cbn [andb]. destruct (i <? length ns) eqn:B; [|apply Nat.ltb_ge in B; lia]. rewrite En. reflexivity.
      * subst j. rewrite nth_error_app2 by (rewrite upd_length; lia). rewrite upd_length, Nat.sub_diag. assert (X : nth_error ns (length ns) = None) by (apply nth_error_None; lia). rewrite X. reflexivity.
      * rewrite nth_error_app2 by (rewrite upd_length; lia). rewrite upd_length. destruct (j - length ns) as [|u] eqn:U; [lia|]. assert (X : nth_error ns j = None) by (apply nth_error_None; lia). rewrite X. destruct u; reflexivity.
Qed.
End Step.

Lemma steps_ok : forall cs ns P i p, Str ns P -> nth_error P i = Some p -> exists ns' i' e, foldM insert_step cs (ns, i) = Ok (ns', i') /\ Str ns' (P ++ e) /\ nth_error (P ++ e) i' = Some (p ++ cs) /\
  (forall q, In q (P ++ e) <-> In q P \/ exists r s, cs = r ++ s /\ q = p ++ r) /\ (forall j, item_of ns' j = item_of ns j).
Proof.
  induction cs as [|c cs IH]; intros ns P i p HS Ep.
  - exists ns, i, []. rewrite !app_nil_r. split; [reflexivity|]. split; auto. split; auto. split; auto. intros q. split; auto. intros [H|(r & s & E & ->)]; auto.
    symmetry in E. apply app_eq_nil in E. destruct E as [-> ->]. rewrite app_nil_r. eapply nth_error_In; eauto.
  - destruct (step_ok ns P HS i p c Ep) as (ns1 & i1 & e1 & E1 & S1 & P1 & I1 & T1). destruct (IH ns1 (P ++ e1) i1 (p ++ [c]) S1 P1) as (ns2 & i2 & e2 & E2 & S2 & P2 & I2 & T2).
    exists ns2, i2, (e1 ++ e2). rewrite app_assoc. cbn [foldM]. rewrite E1. cbn [bind]. split; auto. split; auto. split; [rewrite P2, <- app_assoc; reflexivity|].
    split; [|intros j; rewrite T2; apply T1]. intros q. rewrite I2, I1. split.
    + intros [[H| -> ]|(r & s & -> & ->)]; auto.
      * right. exists [c], cs. auto.
      * right. exists (c :: r), s. split; auto. rewrite <- app_assoc. reflexivity.
    + intros [H|(r & s & E & ->)]; auto. destruct r as [|x r].
      * left. left. rewrite app_nil_r. eapply nth_error_In; eauto.
      * injection E as <- ->. right. exists r, s. split; auto. rewrite <- app_assoc. reflexivity.
Qed.

Section Items.
Context {A : Type}.
Implicit Types (ops : list (list N * A)) (t : trie A).
Record Inv ops t (P : list (list N)) : Prop := {
  iv_str : Str (tr_nodes t) P;
  iv_pref : forall p, In p P <-> key_prefix ops p;
  iv_some : forall j x p, nth_error P j = Some p -> item_of (tr_nodes t) j = Some x -> exists k, p = k ++ [0%N] /\ last_item ops k <> None /\ nth_error (tr_store t) x = last_item ops k;
  iv_none : forall j k, nth_error P j = Some (k ++ [0%N]) -> item_of (tr_nodes t) j = None -> last_item ops k = None;
  iv_inj : forall i j x, item_of (tr_nodes t) i = Some x -> item_of (tr_nodes t) j = Some x -> i = j
}.
Lemma last_item_app : forall ops k x q, last_item (ops ++ [(k, x)]) q = if list_eq_dec N.eq_dec k q then Some x else last_item ops q.
Proof. intros. unfold last_item. rewrite rev_app_distr. cbn [rev app find fst]. destruct (list_eq_dec N.eq_dec k q); reflexivity. Qed.
Lemma key_prefix_app : forall ops k x p, key_prefix (ops ++ [(k, x)]) p <-> key_prefix ops p \/ exists r s, k ++ [0%N] = r ++ s /\ p = r.
Proof.
  intros ops k x p. unfold key_prefix. split.
  - intros [->|(k' & x' & q & I & E)]; auto. apply in_app_or in I. destruct I as [I|[I|[]]].
    + left. right. eauto.
    + injection I as -> ->. right. eauto.
  - intros [[->|(k' & x' & q & I & E)]|(r & s & E & ->)]; auto.
    + right. exists k', x', q. split; auto. apply in_or_app. auto.
    + right. exists k, x, s. split; auto. apply in_or_app. right. left. reflexivity.
Qed.
Lemma item_of_upd : forall ns i n, i < length ns -> forall j, item_of (upd ns i n) j = if j =? i then nd_item n else item_of ns j.
Proof. intros ns i n L j. unfold item_of. rewrite nth_error_upd. destruct (Nat.eqb_spec j i) as [->|]; [|reflexivity]. cbn [andb]. destruct (Nat.ltb_spec i (length ns)); [reflexivity|lia]. Qed.
Lemma Str_item : forall ns P i n x, Str ns P -> nth_error ns i = Some n -> Str (upd ns i {| nd_item := x; nd_edges := nd_edges n |}) P.
Proof.
  intros ns P i n x S En. assert (G : forall j m, nth_error (upd ns i {| nd_item := x; nd_edges := nd_edges n |}) j = Some m -> exists m', nth_error ns j = Some m' /\ nd_edges m = nd_edges m').
  { intros j m E. rewrite nth_error_upd in E. destruct (Nat.eqb_spec j i) as [->|]; cbn [andb] in E; [|eauto]. destruct (i <? length ns); [injection E as <-; exists n; auto|eauto]. }
  split.
  - rewrite upd_length. apply (st_len _ _ S).
  - apply (st_root _ _ S).
  - apply (st_nodup _ _ S).
  - intros j m E. destruct (G j m E) as (m' & E' & ->). eapply st_sorted; eauto.
  - intros j m p E Ep. destruct (G j m E) as (m' & E' & ->). eapply st_edges; eauto.
  - apply (st_closed _ _ S).
Qed.
Lemma insert_ok : forall ops t P k x, Inv ops t P -> exists t' y e, tr_insert t k x = Ok (t', y) /\ Inv (ops ++ [(k, x)]) t' (P ++ e) /\ nth_error (tr_store t') y = Some x.
Proof.
  intros ops t P k x I. unfold tr_insert. pose proof (iv_str _ _ _ I) as S0.
  assert (F : forall st, (do r <- foldM insert_step k st; insert_step r 0%N) = foldM insert_step (k ++ [0%N]) st).
  { intros st. rewrite foldM_app. destruct (foldM insert_step k st) as [r| | |]; cbn [bind foldM]; auto. destruct (insert_step r 0%N); reflexivity. }
  destruct (steps_ok (k ++ [0%N]) (tr_nodes t) P 0 [] S0 (st_root _ _ S0)) as (ns & i & e & E & S & Ei & IP & IT). cbn [app] in Ei, IP.
  rewrite <- F in E. destruct (foldM insert_step k (tr_nodes t, 0)) as [r| | |]; cbn [bind] in *; try discriminate. rewrite E. cbn [bind].
  pose proof (nth_error_lt _ _ _ _ Ei) as Li. rewrite (st_len _ _ S) in Li. destruct (nth_error_ex _ _ _ Li) as (n & En). rewrite (lget_nth_error _ _ _ _ En). cbn [bind].
  assert (PI : forall p, In p (P ++ e) <-> key_prefix (ops ++ [(k, x)]) p).
  { intros p. rewrite IP, (iv_pref _ _ _ I), key_prefix_app. reflexivity. }
  assert (In_i : item_of ns i = nd_item n) by (unfold item_of; rewrite En; reflexivity).
  assert (OLD : forall j y, item_of ns j = Some y -> exists p, nth_error P j = Some p /\ nth_error (P ++ e) j = Some p).
  { intros j y H. rewrite IT in H. assert (L : j < length P). { rewrite (st_len _ _ S0). unfold item_of in H. destruct (nth_error (tr_nodes t) j) eqn:Q; [eapply nth_error_lt; eauto|discriminate]. }
    destruct (nth_error_ex _ _ _ L) as (p & Ep). exists p. split; auto. rewrite nth_error_app1; auto. }
  assert (NONE : forall j q, nth_error (P ++ e) j = Some (q ++ [0%N]) -> item_of ns j = None -> k <> q -> last_item ops q = None).
  { intros j q Ej Hj Hq. destruct (lt_dec j (length P)) as [L|L].
    - rewrite nth_error_app1 in Ej by auto. rewrite IT in Hj. eapply iv_none; eauto.
    - assert (NP : ~ In (q ++ [0%N]) P). { intros Hin. apply In_nth_error in Hin. destruct Hin as (j' & Ej'). assert (nth_error (P ++ e) j' = Some (q ++ [0%N])) by (rewrite nth_error_app1; auto; eapply nth_error_lt; eauto).
        pose proof (NoDup_nth_error_inj _ _ _ _ _ (st_nodup _ _ S) Ej H). subst j'. apply nth_error_lt in Ej'. lia. }
      rewrite (iv_pref _ _ _ I) in NP. destruct (last_item ops q) as [y|] eqn:Q; auto. exfalso. apply NP. right. unfold last_item in Q.
      destruct (find _ _) as [[q' y']|] eqn:Fd in Q; [|discriminate]. apply find_some in Fd. destruct Fd as [Fd1 Fd2]. cbn [fst] in Fd2. destruct (list_eq_dec N.eq_dec q' q); [|discriminate]. subst q'.
      exists q, y', []. rewrite app_nil_r. split; auto. apply in_rev. exact Fd1. }
  destruct (nd_item n) as [y|] eqn:Ny.
  - destruct (OLD i y) as (p & Ep & Ep'); [congruence|]. rewrite Ei in Ep'. injection Ep' as <-.
    destruct (iv_some _ _ _ I i y _ Ep) as (k' & Ek & Lk & Sk); [rewrite <- IT; congruence|]. apply app_inj_tail in Ek. destruct Ek as [<- _].
    assert (Ly : y < length (tr_store t)). { apply nth_error_Some. congruence. }
    rewrite lset_Ok by auto. cbn [bind]. exists {| tr_nodes := ns; tr_store := upd (tr_store t) y x |}, y, e. split; [reflexivity|]. split; [split; cbn [tr_nodes tr_store]|].
    + exact S.
    + exact PI.
    + intros j z q Ej Hj. destruct (OLD j z Hj) as (q' & Eq & Eq'). rewrite Ej in Eq'. injection Eq' as <-. rewrite IT in Hj.
      destruct (iv_some _ _ _ I j z _ Eq Hj) as (k' & -> & Lk' & Sk'). exists k'. split; auto. rewrite last_item_app, nth_error_upd.
      destruct (list_eq_dec N.eq_dec k k') as [<-|Q].
      * split; [discriminate|]. assert (j = i) by (eapply NoDup_nth_error_inj; [apply (st_nodup _ _ S)|exact Ej|exact Ei]). subst j. assert (z = y) by (rewrite IT in In_i; congruence). subst z. rewrite Nat.eqb_refl. cbn [andb]. destruct (Nat.ltb_spec y (length (tr_store t))); [reflexivity|lia].
      * split; auto. destruct (Nat.eqb_spec z y) as [->|]; [|cbn [andb]; auto]. exfalso. assert (j = i) by (apply (iv_inj _ _ _ I j i y); auto; rewrite <- IT; congruence). subst j.
        rewrite Ei in Ej. injection Ej as Ej. apply app_inj_tail in Ej. destruct Ej. congruence.
    + intros j q Ej Hj. rewrite last_item_app. destruct (list_eq_dec N.eq_dec k q) as [<-|Q]; [|eauto]. exfalso.
      assert (j = i) by (eapply NoDup_nth_error_inj; [apply (st_nodup _ _ S)|exact Ej|exact Ei]). congruence.
    + intros a b z Ha Hb. rewrite IT in Ha, Hb. eapply iv_inj; eauto.
    + cbn [tr_store]. rewrite nth_error_upd, Nat.eqb_refl. cbn [andb]. destruct (Nat.ltb_spec y (length (tr_store t))); [reflexivity|lia].
  - rewrite lset_Ok by auto. cbn [bind]. eexists. exists (length (tr_store t)), e. split; [reflexivity|]. 
    assert (LT : forall j z, item_of (tr_nodes t) j = Some z -> z < length (tr_store t)).
    { intros j z H. rewrite <- IT in H. destruct (OLD j z H) as (q & Eq & _). rewrite IT in H. destruct (iv_some _ _ _ I j z _ Eq H) as (k' & _ & Lk' & Sk'). apply nth_error_Some. congruence. }
    split; [split; cbn [tr_nodes tr_store]|].
    + apply Str_item; auto.
    + exact PI.
    + intros j z q Ej Hj. rewrite item_of_upd in Hj by auto. cbn [nd_item] in Hj. destruct (Nat.eqb_spec j i) as [->|Q].
      * injection Hj as <-. rewrite Ei in Ej. injection Ej as <-. exists k. split; auto. rewrite last_item_app. destruct (list_eq_dec N.eq_dec k k); [|congruence]. split; [discriminate|]. rewrite nth_error_app2, Nat.sub_diag by lia. reflexivity.
      * destruct (OLD j z Hj) as (q' & Eq & Eq'). rewrite Ej in Eq'. injection Eq' as <-. rewrite IT in Hj. destruct (iv_some _ _ _ I j z _ Eq Hj) as (k' & -> & Lk' & Sk').
        exists k'. split; auto. rewrite last_item_app. destruct (list_eq_dec N.eq_dec k k') as [<-|].
        -- exfalso. apply Q. eapply NoDup_nth_error_inj; [apply (st_nodup _ _ S)|exact Ej|exact Ei].
        -- split; auto. rewrite nth_error_app1; auto. eapply LT; eauto.
    + intros j q Ej Hj. rewrite item_of_upd in Hj by auto. cbn [nd_item] in Hj. destruct (Nat.eqb_spec j i) as [->|Q]; [discriminate|]. rewrite last_item_app.
      destruct (list_eq_dec N.eq_dec k q) as [<-|]; [|eauto]. exfalso. apply Q. eapply NoDup_nth_error_inj; [apply (st_nodup _ _ S)|exact Ej|exact Ei].
    + intros a b z Ha Hb. rewrite item_of_upd in Ha, Hb by auto. cbn [nd_item] in Ha, Hb. destruct (Nat.eqb_spec a i) as [->|Qa], (Nat.eqb_spec b i) as [->|Qb]; auto.
      * injection Ha as <-. rewrite IT in Hb. apply LT in Hb. lia.
      * injection Hb as <-. rewrite IT in Ha. apply LT in Ha. lia.
      * rewrite IT in Ha, Hb. eapply iv_inj; eauto.
    + cbn [tr_store]. rewrite nth_error_app2, Nat.sub_diag by lia. reflexivity.
Qed.
Lemma Inv_new : Inv [] tr_new [[]].
Proof.
  split; cbn [tr_new tr_nodes tr_store].
  - apply Str_new.
  - intros p. unfold key_prefix. split; [intros [<-|[]]; auto|]. intros [->|(k & x & q & [] & _)]. left. reflexivity.
  - intros [|[|j]] x p H K; try discriminate.
  - intros j k _ _. reflexivity.
  - intros [|[|i]] j x H; try discriminate.
Qed.
Lemma run_ok : forall ops, exists t P, tr_run ops = Ok t /\ Inv ops t P.
Proof.
  intros ops. induction ops as [|[k x] ops IH] using rev_ind. { exists tr_new, [[]]. split; [reflexivity|apply Inv_new]. }
  destruct IH as (t & P & E & I). destruct (insert_ok ops t P k x I) as (t' & y & e & E' & I' & _). exists t', (P ++ e). split; auto.
  unfold tr_run in *. rewrite foldM_app, E. cbn [bind foldM fst snd]. rewrite E'. reflexivity.
Qed.
Lemma walk_ok : forall ns P, Str ns P -> forall key i p, nth_error P i = Some p ->
  (exists j, tr_walk ns i key = Ok (Some j) /\ nth_error P j = Some (p ++ key)) \/ (tr_walk ns i key = Ok None /\ ~ In (p ++ key) P).
Proof.
  intros ns P S. induction key as [|c key IH]; intros i p Ep.
  - left. exists i. rewrite app_nil_r. auto.
  - cbn [tr_walk]. pose proof (nth_error_lt _ _ _ _ Ep) as Li. rewrite (st_len _ _ S) in Li. destruct (nth_error_ex _ _ _ Li) as (n & En). rewrite (lget_nth_error _ _ _ _ En). cbn [bind].
    destruct (target_spec ns P S i n p c En Ep) as [[T1 T2]|[T1 T2]].
    + destruct (Nat.eqb_spec (nd_target n c) 0); [congruence|]. destruct (IH _ _ T2) as [(j & E & Ej)|[E Ej]].
      * left. exists j. rewrite <- app_assoc in Ej. auto.
      * right. rewrite <- app_assoc in Ej. auto.
    + rewrite T1, Nat.eqb_refl. right. split; auto. intros H. apply T2. clear - H S. replace (p ++ c :: key) with ((p ++ [c]) ++ key) in H by (rewrite <- app_assoc; reflexivity).
      revert H. induction key as [|d key IH] using rev_ind; intros H; [rewrite app_nil_r in H; exact H|]. apply IH. rewrite app_assoc in H. eapply st_closed; eauto.
Qed.
Lemma last_item_key : forall ops k y, last_item ops k = Some y -> In (k, y) ops.
Proof.
  intros ops k y H. unfold last_item in H. destruct (find _ _) as [[q z]|] eqn:F in H; [|discriminate]. injection H as <-. apply find_some in F. destruct F as [F1 F2]. cbn [fst snd] in *.
  destruct (list_eq_dec N.eq_dec q k); [|discriminate]. subst q. apply in_rev. exact F1.
Qed.
Definition fits (st : size_type) (n : nat) : Prop := (N.of_nat n < match st with SizeT => 2 ^ 64 - 1 | UInt32 => 2 ^ 32 - 1 | Int32 => 2 ^ 31 - 1 end)%N.
Lemma traverse_gen : forall st ops t P k, Inv ops t P -> fits st (length (tr_store t)) -> (st = SizeT \/ (forall q x, In (q, x) ops -> ~ In 0%N q)) -> tr_traverse st t k = Ok (last_item ops k).
Proof.
  intros st ops t P k I Fit Hst. pose proof (iv_str _ _ _ I) as S. unfold tr_traverse, tr_traverse_index.
  assert (NP : ~ In (k ++ [0%N]) P -> last_item ops k = None).
  { intros H. destruct (last_item ops k) as [y|] eqn:Q; auto. exfalso. apply H. apply (iv_pref _ _ _ I). right. exists k, y, []. rewrite app_nil_r. split; auto. apply last_item_key. exact Q. }
  destruct (walk_ok _ _ S k 0 [] (st_root _ _ S)) as [(i & -> & Ei)|[-> Ei]]; cbn [bind app] in *.
  2: { rewrite N.eqb_refl. f_equal. symmetry. apply NP. intros H. apply Ei. eapply st_closed; eauto. }
  pose proof (nth_error_lt _ _ _ _ Ei) as Li. rewrite (st_len _ _ S) in Li. destruct (nth_error_ex _ _ _ Li) as (n & En). rewrite (lget_nth_error _ _ _ _ En). cbn [bind].
  destruct (target_spec _ P S i n k 0%N En Ei) as [[T1 T2]|[T1 T2]].
  2: { rewrite T1, Nat.eqb_refl. cbn [bind]. rewrite N.eqb_refl. f_equal. symmetry. auto. }
  destruct (Nat.eqb_spec (nd_target n 0) 0); [congruence|].
  pose proof (nth_error_lt _ _ _ _ T2) as Lj. rewrite (st_len _ _ S) in Lj. destruct (nth_error_ex _ _ _ Lj) as (m & Em). rewrite (lget_nth_error _ _ _ _ Em). cbn [bind].
  assert (Hm : item_of (tr_nodes t) (nd_target n 0) = nd_item m) by (unfold item_of; rewrite Em; reflexivity).
  unfold nd_item_index. destruct (nd_item m) as [y|] eqn:Ny.
  - destruct (iv_some _ _ _ I _ _ _ T2 Hm) as (k' & Ek & Lk & Sk). apply app_inj_tail in Ek. destruct Ek as [<- _].
    assert (Ly : y < length (tr_store t)) by (apply nth_error_Some; congruence).
    unfold fits in Fit. assert (B : (N.of_nat (length (tr_store t)) < 2 ^ 64 - 1)%N).
    { change (2 ^ 64 - 1)%N with 18446744073709551615%N in *. change (2 ^ 32 - 1)%N with 4294967295%N in Fit. change (2 ^ 31 - 1)%N with 2147483647%N in Fit. destruct st; lia. }
    destruct (N.eqb_spec (N.of_nat y) (2 ^ 64 - 1)); [lia|]. destruct (N.ltb_spec (N.of_nat y) (N.of_nat (length (tr_store t)))); [|lia].
    rewrite Nnat.Nat2N.id. rewrite <- Sk. destruct (nth_error (tr_store t) y) as [z|] eqn:Ez; [|congruence]. rewrite (lget_nth_error _ _ _ _ Ez). reflexivity.
  - assert (LN : last_item ops k = None) by (eapply iv_none; eauto). destruct Hst as [->|Hst]; [rewrite N.eqb_refl; congruence|]. exfalso.
    assert (In (k ++ [0%N]) P) by (eapply nth_error_In; eauto). apply (iv_pref _ _ _ I) in H. destruct H as [H|(q & x & r & Hin & H)]; [destruct k; discriminate|].
    destruct r as [|c r] using rev_ind.
    + rewrite app_nil_r in H. apply app_inj_tail in H. destruct H as [-> _].
      assert (X : forall l : list (list N * A), In (k, x) l -> last_item l k <> None).
      { clear. intros l H. unfold last_item. destruct (find _ _) as [z|] eqn:F; [discriminate|]. apply in_rev in H. apply (find_none _ _ F) in H. cbn [fst] in H. destruct (list_eq_dec N.eq_dec k k); congruence. }
      apply (X _ Hin LN).
    + rewrite app_assoc in H. apply app_inj_tail in H. destruct H as [H _]. apply (Hst _ _ Hin). rewrite H. apply in_or_app. left. apply in_or_app. right. left. reflexivity.
Qed.
Lemma store_le : forall ops t, tr_run ops = Ok t -> length (tr_store t) <= length ops.
Proof.
  induction ops as [|[k x] ops IH] using rev_ind; intros t E. { injection E as <-. reflexivity. }
  unfold tr_run in *. rewrite foldM_app in E. apply bind_Ok_inv in E. destruct E as (t0 & E0 & E). specialize (IH _ E0). rewrite app_length. cbn [length].
  cbn [foldM] in E. apply bind_Ok_inv in E. destruct E as (t1 & E & X). injection X as <-. apply bind_Ok_inv in E. destruct E as ([t2 y] & E & X). injection X as <-. cbn [fst snd] in *.
  unfold tr_insert in E. apply bind_Ok_inv in E. destruct E as (r1 & _ & E). apply bind_Ok_inv in E. destruct E as ([ns i] & _ & E). apply bind_Ok_inv in E. destruct E as (n & _ & E).
  destruct (nd_item n).
  - apply bind_Ok_inv in E. destruct E as (st & E & X). injection X as <- <-. apply lset_inv in E. destruct E as [_ ->]. cbn [tr_store]. rewrite upd_length. lia.
  - apply bind_Ok_inv in E. destruct E as (ns' & E & X). injection X as <- <-. cbn [tr_store]. rewrite app_length. cbn [length]. lia.
Qed.
Theorem trie_map : forall ops, (N.of_nat (length ops) < 2 ^ 64 - 1)%N -> exists t, tr_run ops = Ok t /\ forall k, tr_traverse SizeT t k = Ok (last_item ops k).
Proof.
  intros ops B. destruct (run_ok ops) as (t & P & E & I). exists t. split; auto. intros k. eapply traverse_gen; eauto. pose proof (store_le _ _ E). unfold fits. lia.
Qed.
Theorem trie_map_small : forall st ops, fits st (length ops) -> (forall q x, In (q, x) ops -> ~ In 0%N q) -> exists t, tr_run ops = Ok t /\ forall k, tr_traverse st t k = Ok (last_item ops k).
Proof.
  intros st ops B Z. destruct (run_ok ops) as (t & P & E & I). exists t. split; auto. intros k. eapply traverse_gen; eauto. pose proof (store_le _ _ E). unfold fits in *. lia.
Qed.
(** the pointer returned by insert *)
Theorem insert_returns : forall ops t k x, tr_run ops = Ok t -> exists t' y, tr_insert t k x = Ok (t', y) /\ nth_error (tr_store t') y = Some x.
Proof.
  intros ops t k x E. destruct (run_ok ops) as (t0 & P & E0 & I). rewrite E in E0. injection E0 as <-. destruct (insert_ok ops t P k x I) as (t' & y & e & E' & _ & Y). eauto.
Qed.
Theorem terminal_ok : forall ops t, tr_run ops = Ok t -> (N.of_nat (length ops) < 2 ^ 64 - 1)%N -> forall p, key_prefix ops p ->
  exists i n, tr_walk (tr_nodes t) 0 p = Ok (Some i) /\ nth_error (tr_nodes t) i = Some n /\ (nd_terminal SizeT n = true <-> exists k x, In (k, x) ops /\ p = k ++ [0%N]).
Proof.
  intros ops t E B p Hp. destruct (run_ok ops) as (t0 & P & E0 & I). rewrite E in E0. injection E0 as <-. pose proof (iv_str _ _ _ I) as S. pose proof (store_le _ _ E) as SL.
  destruct (walk_ok _ _ S p 0 [] (st_root _ _ S)) as [(i & W & Ei)|[W Ei]]; cbn [app] in *. 2: { exfalso. apply Ei. apply (iv_pref _ _ _ I). exact Hp. }
  pose proof (nth_error_lt _ _ _ _ Ei) as Li. rewrite (st_len _ _ S) in Li. destruct (nth_error_ex _ _ _ Li) as (n & En). exists i, n. split; auto. split; auto.
  assert (Hm : item_of (tr_nodes t) i = nd_item n) by (unfold item_of; rewrite En; reflexivity).
  unfold nd_terminal, nd_item_index. destruct (nd_item n) as [y|] eqn:Ny.
  - destruct (iv_some _ _ _ I _ _ _ Ei Hm) as (k & -> & Lk & Sk). assert (Ly : y < length (tr_store t)) by (apply nth_error_Some; congruence).
    destruct (N.eqb_spec (N.of_nat y) (2 ^ 64 - 1)); [lia|]. cbn [negb]. split; auto. intros _. destruct (last_item ops k) as [z|] eqn:Q; [|congruence]. exists k, z. split; auto. apply last_item_key. exact Q.
  - rewrite N.eqb_refl. cbn [negb]. split; [discriminate|]. intros (k & x & Hin & ->). exfalso. pose proof (iv_none _ _ _ I _ _ Ei Hm) as LN.
    unfold last_item in LN. destruct (find _ _) as [z|] eqn:F in LN; [discriminate|]. apply in_rev in Hin. apply (find_none _ _ F) in Hin. cbn [fst] in Hin. destruct (list_eq_dec N.eq_dec k k); congruence.
Qed.
End Items.
