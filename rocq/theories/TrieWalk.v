(** The two traversals of TrieModel visit the nodes in order. *)
From Coq Require Import List NArith Arith Bool Lia Sorted.
From Verif Require Import Base Spec5 LcpProof TrieModel TrieProof.
Import ListNotations.
Local Open Scope nat_scope.

Fixpoint index_of (P : list (list N)) (p : list N) : nat := match P with [] => 0 | q :: P => if list_eq_dec N.eq_dec q p then 0 else S (index_of P p) end.
Lemma index_ok : forall P i p, NoDup P -> nth_error P i = Some p -> index_of P p = i.
Proof.
  intros P i p ND E. assert (X : nth_error P (index_of P p) = Some p).
  { apply nth_error_In in E. clear ND. induction P as [|q P IH]; [destruct E|]. cbn [index_of]. destruct (list_eq_dec N.eq_dec q p) as [->|Q]; [reflexivity|]. cbn [nth_error]. apply IH. destruct E; [congruence|auto]. }
  eapply NoDup_nth_error_inj; eauto.
Qed.
Definition extends (p q : list N) : Prop := exists r, q = p ++ r.
Lemma lex_prefix : forall p c r, lex_lt p (p ++ c :: r).
Proof. induction p as [|x p IH]; intros c r; cbn [app lex_lt]; auto. Qed.
Lemma lex_below : forall p c d r s, (c < d)%N -> lex_lt (p ++ c :: r) (p ++ d :: s).
Proof. induction p as [|x p IH]; intros c d r s H; cbn [app lex_lt]; auto. Qed.
Lemma SS_app : forall (A : Type) (R : A -> A -> Prop) l m, StronglySorted R l -> StronglySorted R m -> (forall x y, In x l -> In y m -> R x y) -> StronglySorted R (l ++ m).
Proof.
  intros A R l m Sl Sm H. induction Sl as [|x l Sl IH F]; [exact Sm|]. cbn [app]. constructor.
  - apply IH. intros; apply H; [right|]; auto.
  - apply Forall_app. split; auto. apply Forall_forall. intros y Hy. apply H; [left; reflexivity|auto].
Qed.

Section Walk.
Variables (ns : list node) (P : list (list N)).
Hypothesis HS : Str ns P.
Let call (p : list N) := (index_of P p, length p).
Lemma closed_app : forall r p, In (p ++ r) P -> In p P.
Proof using HS. induction r as [|c r IH] using rev_ind; intros p H; [rewrite app_nil_r in H; auto|]. apply IH. rewrite app_assoc in H. eapply st_closed; eauto. Qed.
Lemma dfs_ok : forall fuel i p, nth_error P i = Some p -> (forall q, In q P -> extends p q -> length q < length p + fuel) ->
  exists ps, tr_dfs fuel ns i (length p) = Ok (map call ps) /\ StronglySorted lex_lt ps /\ forall q, In q ps <-> In q P /\ extends p q.
Proof using HS.
  induction fuel as [|fuel IH]; intros i p Ep B.
  { exfalso. specialize (B p (nth_error_In _ _ Ep)). assert (extends p p) by (exists []; rewrite app_nil_r; reflexivity). specialize (B H). lia. }
  cbn [tr_dfs]. pose proof (nth_error_lt _ _ _ _ Ep) as Li. rewrite (st_len _ _ HS) in Li. destruct (nth_error_ex _ _ _ Li) as (n & En). rewrite (lget_nth_error _ _ _ _ En). cbn [bind].
  assert (G : forall es, (forall c j, In (c, j) es -> nth_error P j = Some (p ++ [c])) -> StronglySorted N.lt (map fst es) -> forall done,
    exists ps, foldM (fun calls e => do l <- tr_dfs fuel ns (snd e) (length p + 1); Ok (calls ++ l)) es done = Ok (done ++ map call ps) /\ StronglySorted lex_lt ps /\
      forall q, In q ps <-> In q P /\ exists c r, In c (map fst es) /\ q = p ++ c :: r).
  { induction es as [|[c j] es IHes]; intros He Ss done.
    - exists []. cbn [foldM map]. rewrite app_nil_r. split; auto. split; [constructor|]. intros q. split; [intros []|]. intros (_ & c & r & [] & _).
    - cbn [map fst] in Ss. inversion Ss as [|x y S1 F1]; subst. cbn [foldM snd].
      destruct (IH j (p ++ [c])) as (ps1 & E1 & O1 & I1). { apply He. left. reflexivity. }
      { intros q Hq (r & ->). specialize (B _ Hq). assert (extends p ((p ++ [c]) ++ r)) by (exists (c :: r); rewrite <- app_assoc; reflexivity). specialize (B H). rewrite !app_length in *. cbn [length] in *. lia. }
      rewrite app_length in E1. cbn [length] in E1. rewrite E1. cbn [bind].
      destruct (IHes (fun c' j' H => He c' j' (or_intror H)) S1 (done ++ map call ps1)) as (ps2 & E2 & O2 & I2). rewrite E2. exists (ps1 ++ ps2).
      rewrite map_app, app_assoc. split; auto. split.
      + apply SS_app; auto. intros x y Hx Hy. apply I1 in Hx. apply I2 in Hy. destruct Hx as [_ (r & ->)]. destruct Hy as [_ (d & s & Hd & ->)]. rewrite <- app_assoc. cbn [app].
        rewrite Forall_forall in F1. apply lex_below. apply F1. exact Hd.
      + intros q. rewrite in_app_iff, I1, I2. cbn [map fst In]. split.
        * intros [[H (r & ->)]|[H (d & s & Hd & ->)]]; split; auto. { exists c, r. rewrite <- app_assoc. auto. } { exists d, s. auto. }
        * intros [H (d & s & [<-|Hd] & ->)]; [left|right]; split; auto. { exists s. rewrite <- app_assoc. reflexivity. } { exists d, s. auto. } }
  assert (He : forall c j, In (c, j) (nd_edges n) -> nth_error P j = Some (p ++ [c])) by (intros c j H; apply (st_edges _ _ HS _ _ _ En Ep); exact H).
  destruct (G (nd_edges n) He (st_sorted _ _ HS _ _ En) [(i, length p)]) as (ps & E & O & I).
  exists (p :: ps). assert (X : call p = (i, length p)). { unfold call. rewrite (index_ok _ _ _ (st_nodup _ _ HS) Ep). reflexivity. }
  cbn [map]. rewrite X. split; [exact E|]. split.
  - constructor; auto. apply Forall_forall. intros q Hq. apply I in Hq. destruct Hq as (_ & c & r & _ & ->). apply lex_prefix.
  - intros q. cbn [In]. rewrite I. split.
    + intros [<-|(H & c & r & _ & ->)]; [split; [eapply nth_error_In; eauto|exists []; rewrite app_nil_r; auto]|]. split; auto. exists (c :: r). reflexivity.
    + intros [H (r & ->)]. destruct r as [|c r]; [left; rewrite app_nil_r; auto|]. right. split; auto. exists c, r. split; auto.
      replace (p ++ c :: r) with ((p ++ [c]) ++ r) in H by (rewrite <- app_assoc; reflexivity). apply closed_app in H. apply In_nth_error in H. destruct H as (j & H).
      apply (st_edges _ _ HS _ _ _ En Ep) in H. apply (in_map fst _ _ H).
Qed.
(** a path is shorter than the number of nodes *)
Lemma path_short : forall p, In p P -> length p < length P.
Proof using HS.
  intros p H. assert (ND : NoDup (map (fun k => firstn k p) (seq 0 (S (length p))))).
  { apply (NoDup_map_inv (@length N)). rewrite map_map. rewrite (map_ext_in _ (fun k => k)). { rewrite map_id. apply seq_NoDup. } intros k Hk. apply in_seq in Hk. rewrite firstn_length. lia. }
  apply NoDup_incl_length with (l' := P) in ND. { rewrite map_length, seq_length in ND. lia. }
  intros q Hq. apply in_map_iff in Hq. destruct Hq as (k & <- & _). apply (closed_app (skipn k p)). rewrite firstn_skipn. exact H.
Qed.
Theorem dfs_all : forall fuel, length ns <= fuel -> exists ps, tr_dfs fuel ns 0 0 = Ok (map call ps) /\ StronglySorted lex_lt ps /\ forall q, In q ps <-> In q P.
Proof using HS.
  intros fuel H. destruct (dfs_ok fuel 0 [] (st_root _ _ HS)) as (ps & E & O & I). { intros q Hq _. apply path_short in Hq. rewrite (st_len _ _ HS) in Hq. cbn [length]. lia. }
  exists ps. split; auto. split; auto. intros q. rewrite I. split; [tauto|]. intros Hq. split; auto. exists q. reflexivity.
Qed.

Lemma sl_trans : forall a b c, shortlex_lt a b -> shortlex_lt b c -> shortlex_lt a c.
Proof. clear. unfold shortlex_lt. intros a b c [H|[H1 H2]] [K|[K1 K2]]; try (left; lia). right. split; [lia|]. eapply lex_lt_trans; eauto. Qed.
Lemma sl_irrefl : forall a, ~ shortlex_lt a a.
Proof. clear. intros a [H|[_ H]]; [lia|]. exact (lex_lt_irrefl _ H). Qed.
Lemma lex_app : forall a b, length a = length b -> lex_lt a b -> forall r s, lex_lt (a ++ r) (b ++ s).
Proof.
  clear. induction a as [|x a IH]; intros [|y b] L H r s; cbn [length lex_lt app] in *; try lia; try tauto. destruct H as [H|[-> H]]; auto.
Qed.
Lemma sl_child : forall a b c d, shortlex_lt a b -> shortlex_lt (a ++ [c]) (b ++ [d]).
Proof. clear. intros a b c d [H|[H1 H2]]. { left. rewrite !app_length. cbn [length]. lia. } right. rewrite !app_length. split; [cbn [length]; lia|]. apply lex_app; auto. Qed.
Lemma SS_NoDup : forall l, StronglySorted shortlex_lt l -> NoDup l.
Proof. clear. intros l H. induction H as [|x l S IH F]; constructor; auto. intros I. rewrite Forall_forall in F. exact (sl_irrefl _ (F _ I)). Qed.
Lemma bfs_ok : forall fuel vis queue, length P < length vis + fuel -> (forall q, In q (vis ++ queue) -> In q P) -> StronglySorted shortlex_lt (vis ++ queue) -> In [] (vis ++ queue) ->
  (forall q c, In (q ++ [c]) (vis ++ queue) -> In q vis) -> (forall q c, In q vis -> In (q ++ [c]) P -> In (q ++ [c]) (vis ++ queue)) ->
  exists ps, tr_bfs_loop fuel ns (map call queue) = Ok (map call ps) /\ StronglySorted shortlex_lt (vis ++ ps) /\ forall q, In q (vis ++ ps) <-> In q P.
Proof using HS.
  induction fuel as [|fuel IH]; intros vis queue B HP Ss HR HC HV.
  { exfalso. apply SS_NoDup in Ss. apply NoDup_incl_length with (l' := P) in Ss; [rewrite app_length in Ss; lia|exact HP]. }
  destruct queue as [|p queue].
  - exists []. rewrite app_nil_r in *. split; [reflexivity|]. split; auto. intros q. split; [apply HP|]. induction q as [|c q IHq] using rev_ind; auto. intros H. apply HV; auto. apply IHq. eapply st_closed; eauto.
  - cbn [map tr_bfs_loop]. assert (Hp : In p P) by (apply HP; apply in_or_app; right; left; reflexivity). apply In_nth_error in Hp. destruct Hp as (i & Ep).
    assert (X : call p = (i, length p)). { unfold call. rewrite (index_ok _ _ _ (st_nodup _ _ HS) Ep). reflexivity. } rewrite X.
    pose proof (nth_error_lt _ _ _ _ Ep) as Li. rewrite (st_len _ _ HS) in Li. destruct (nth_error_ex _ _ _ Li) as (n & En). rewrite (lget_nth_error _ _ _ _ En). cbn [bind].
    set (kids := map (fun e : N * nat => p ++ [fst e]) (nd_edges n)).
    assert (K : map (fun e : N * nat => (snd e, length p + 1)) (nd_edges n) = map call kids).
    { unfold kids. rewrite map_map. apply map_ext_in. intros [c j] H. apply (st_edges _ _ HS _ _ _ En Ep) in H. unfold call. cbn [fst snd]. rewrite (index_ok _ _ _ (st_nodup _ _ HS) H), app_length. reflexivity. }
    rewrite K, <- map_app.
    assert (KI : forall q, In q kids <-> exists c, q = p ++ [c] /\ In q P).
    { intros q. unfold kids. rewrite in_map_iff. split.
      - intros ([c j] & <- & H). cbn [fst]. exists c. split; auto. apply (st_edges _ _ HS _ _ _ En Ep) in H. eapply nth_error_In; eauto.
      - intros (c & -> & H). apply In_nth_error in H. destruct H as (j & H). exists (c, j). split; auto. apply (st_edges _ _ HS _ _ _ En Ep). exact H. }
    assert (EQ : (vis ++ [p]) ++ queue ++ kids = (vis ++ p :: queue) ++ kids) by (rewrite <- !app_assoc; reflexivity).
    assert (Below : forall x, In x vis -> shortlex_lt x p).
    { intros x Hx. clear - Ss Hx. induction vis as [|y v IHv]; [destruct Hx|]. cbn [app] in Ss. inversion Ss as [|a b S1 F]; subst. destruct Hx as [->|Hx]; [|auto]. rewrite Forall_forall in F. apply F. apply in_or_app. right. left. reflexivity. }
    destruct (IH (vis ++ [p]) (queue ++ kids)) as (ps & E & S2 & I).
    + rewrite app_length. cbn [length]. lia.
    + rewrite EQ. intros q H. apply in_app_or in H. destruct H as [H|H]; [auto|]. apply KI in H. destruct H as (c & _ & H). exact H.
    + rewrite EQ. apply SS_app; auto.
      * unfold kids. pose proof (st_sorted _ _ HS _ _ En) as Se. clear - Se. induction (nd_edges n) as [|[c j] es IHe]; [constructor|]. cbn [map fst] in *. inversion Se as [|a b S1 F]; subst. constructor; auto.
        rewrite Forall_forall in *. intros q H. apply in_map_iff in H. destruct H as ([d k] & <- & H). cbn [fst]. right. rewrite !app_length. split; [reflexivity|]. apply lex_below. apply F. apply (in_map fst _ _ H).
      * intros x y Hx Hy. apply KI in Hy. destruct Hy as (c & -> & _). destruct x as [|d x _] using rev_ind. { left. rewrite app_length. cbn [length]. lia. }
        apply sl_child. apply Below. eapply HC; eauto.
    + rewrite EQ. apply in_or_app. auto.
    + rewrite EQ. intros q c H. apply in_app_or in H. apply in_or_app. destruct H as [H|H]; [left; eapply HC; eauto|]. apply KI in H. destruct H as (d & H & _). apply app_inj_tail in H. destruct H as [-> _]. right. left. reflexivity.
    + rewrite EQ. intros q c H HqP. apply in_app_or in H. apply in_or_app. destruct H as [H|[H|[]]]; [left; apply HV; auto|]. subst q. right. apply KI. eauto.
    + rewrite E. cbn [bind]. exists (p :: ps). cbn [map]. rewrite X. split; auto. rewrite <- app_assoc in S2, I. split; auto.
Qed.
Theorem bfs_all : forall fuel, length ns <= fuel -> exists ps, tr_bfs (S fuel) ns = Ok (map call ps) /\ StronglySorted shortlex_lt ps /\ forall q, In q ps <-> In q P.
Proof using HS.
  intros fuel H. destruct (bfs_ok (S fuel) [] [[]]) as (ps & E & Ss & I); cbn [app] in *.
  - rewrite (st_len _ _ HS). cbn [length]. lia.
  - intros q [<-|[]]. eapply nth_error_In. apply (st_root _ _ HS).
  - repeat constructor.
  - left. reflexivity.
  - intros q c [X|[]]. destruct q; discriminate.
  - intros q c [].
  - exists ps. split; auto. unfold tr_bfs. replace (0, 0) with (call []); [exact E|]. unfold call. rewrite (index_ok _ _ _ (st_nodup _ _ HS) (st_root _ _ HS)). reflexivity.
Qed.
End Walk.

(** the node reached by a string *)
Lemma calls_stmt : forall A (ops : list (list N * A)) t P ps, Inv ops t P -> (forall q, In q ps <-> In q P) ->
  (forall q, In q ps -> tr_walk (tr_nodes t) 0 q = Ok (Some (index_of P q))) /\ NoDup (map (index_of P) ps) \/ ~ NoDup ps.
Proof.
  intros A ops t P ps I E. destruct (ListDec.NoDup_dec (list_eq_dec N.eq_dec) ps) as [ND|ND]; [left|right; exact ND]. pose proof (iv_str _ _ _ I) as S. split.
  - intros q Hq. apply E in Hq. destruct (walk_ok _ _ S q 0 [] (st_root _ _ S)) as [(j & W & Ej)|[_ F]]; cbn [app] in *; [|tauto]. rewrite W. rewrite (index_ok _ _ _ (st_nodup _ _ S) Ej). reflexivity.
  - assert (HP : forall q, In q ps -> In q P) by (intros q; apply E). clear E. induction ND as [|q ps NI ND IH]; [constructor|]. cbn [map]. constructor; [|apply IH; intros; apply HP; right; auto].
    intros H. apply in_map_iff in H. destruct H as (r & Er & Hr). apply NI.
    destruct (In_nth_error P q (HP q (or_introl eq_refl))) as (a & Ea). destruct (In_nth_error P r (HP r (or_intror Hr))) as (b & Eb).
    rewrite (index_ok _ _ _ (st_nodup _ _ S) Ea), (index_ok _ _ _ (st_nodup _ _ S) Eb) in Er. subst b. congruence.
Qed.
Lemma lex_NoDup : forall l, StronglySorted lex_lt l -> NoDup l.
Proof. intros l H. induction H as [|x l S IH F]; constructor; auto. intros I. rewrite Forall_forall in F. exact (lex_lt_irrefl _ (F _ I)). Qed.
Theorem dfs_stmt : forall A (ops : list (list N * A)) t fuel, tr_run ops = Ok t -> length (tr_nodes t) <= fuel -> exists ps node,
  StronglySorted lex_lt ps /\ (forall p, In p ps <-> key_prefix ops p) /\ (forall p, In p ps -> tr_walk (tr_nodes t) 0 p = Ok (Some (node p))) /\
  NoDup (map node ps) /\ length ps = length (tr_nodes t) /\ tr_dfs fuel (tr_nodes t) 0 0 = Ok (map (fun p => (node p, length p)) ps).
Proof.
  intros A ops t fuel E F. destruct (run_ok ops) as (t0 & P & E0 & I). rewrite E in E0. injection E0 as <-. pose proof (iv_str _ _ _ I) as S.
  destruct (dfs_all _ _ S fuel F) as (ps & D & O & M). exists ps, (index_of P). split; auto. split; [intros p; rewrite M; apply (iv_pref _ _ _ I)|].
  pose proof (lex_NoDup _ O) as ND. destruct (calls_stmt _ _ _ _ _ I M) as [[C1 C2]|C]; [|contradiction]. split; auto. split; auto. split; auto.
  rewrite <- (st_len _ _ S). apply Nat.le_antisymm; apply NoDup_incl_length; auto; try (intros q; apply M). apply (st_nodup _ _ S).
Qed.
Theorem bfs_stmt : forall A (ops : list (list N * A)) t fuel, tr_run ops = Ok t -> length (tr_nodes t) < fuel -> exists ps node,
  StronglySorted shortlex_lt ps /\ (forall p, In p ps <-> key_prefix ops p) /\ (forall p, In p ps -> tr_walk (tr_nodes t) 0 p = Ok (Some (node p))) /\
  NoDup (map node ps) /\ length ps = length (tr_nodes t) /\ tr_bfs fuel (tr_nodes t) = Ok (map (fun p => (node p, length p)) ps).
Proof.
  intros A ops t fuel E F. destruct (run_ok ops) as (t0 & P & E0 & I). rewrite E in E0. injection E0 as <-. pose proof (iv_str _ _ _ I) as S.
  destruct fuel as [|fuel]; [lia|]. destruct (bfs_all _ _ S fuel ltac:(lia)) as (ps & D & O & M). exists ps, (index_of P). split; auto. split; [intros p; rewrite M; apply (iv_pref _ _ _ I)|].
  pose proof (SS_NoDup _ O) as ND. destruct (calls_stmt _ _ _ _ _ I M) as [[C1 C2]|C]; [|contradiction]. split; auto. split; auto. split; auto.
  rewrite <- (st_len _ _ S). apply Nat.le_antisymm; apply NoDup_incl_length; auto; try (intros q; apply M). apply (st_nodup _ _ S).
Qed.
