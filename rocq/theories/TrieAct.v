(** Proofs for TrieActModel.v. *)
From Coq Require Import List NArith Arith Bool Lia Sorted.
From Verif Require Import Base Spec5 LcpProof TrieModel TrieProof TrieWalk TrieActModel.
Import ListNotations.
Local Open Scope nat_scope.

(** the members of the action after the calls on the proper prefixes of [p], shortest first *)
Definition after_prefixes {S} (act : S -> nat -> nat -> S) (node : list N -> nat) (s : S) (p : list N) : S :=
  fold_left (fun s k => act s (node (firstn k p)) k) (seq 0 (length p)) s.
(** the calls with the members after all earlier ones *)
Fixpoint threaded {S} (act : S -> nat -> nat -> S) (calls : list (nat * nat)) (s : S) : list (nat * nat * S) :=
  match calls with [] => [] | (i, d) :: calls => (i, d, s) :: threaded act calls (act s i d) end.

Lemma fold_ext_in : forall A B (f g : A -> B -> A) l a, (forall a b, In b l -> f a b = g a b) -> fold_left f l a = fold_left g l a.
Proof. induction l; intros a0 H; cbn [fold_left]; auto. rewrite H by (left; auto). apply IHl. intros. apply H. now right. Qed.
Lemma after_child : forall S act node (s : S) p c, after_prefixes act node s (p ++ [c]) = act (after_prefixes act node s p) (node p) (length p).
Proof.
  intros. unfold after_prefixes. rewrite app_length. cbn [length]. replace (length p + 1) with (Datatypes.S (length p)) by lia. rewrite seq_S, fold_left_app. cbn [fold_left Nat.add].
  rewrite firstn_app, Nat.sub_diag, firstn_all. cbn [firstn]. rewrite app_nil_r. f_equal. apply fold_ext_in. intros a k Hk. apply in_seq in Hk.
  rewrite firstn_app. replace (k - length p) with 0 by lia. cbn [firstn]. now rewrite app_nil_r.
Qed.

Section Walk.
Context {S : Type}.
Variable act : S -> nat -> nat -> S.
Variables (ns : list node) (P : list (list N)) (s0 : S).
Hypothesis HS : Str ns P.
Let past := after_prefixes act (index_of P) s0.
Let call (p : list N) := (index_of P p, length p, past p).
Lemma dfs_act_ok : forall fuel i p, nth_error P i = Some p -> (forall q, In q P -> extends p q -> length q < length p + fuel) ->
  exists ps, dfs_act act fuel ns i (length p) (past p) = Ok (map call ps) /\ StronglySorted lex_lt ps /\ forall q, In q ps <-> In q P /\ extends p q.
Proof using HS.
  induction fuel as [|fuel IH]; intros i p Ep B.
  { exfalso. specialize (B p (nth_error_In _ _ Ep)). assert (extends p p) by (exists []; rewrite app_nil_r; reflexivity). specialize (B H). lia. }
  cbn [dfs_act]. cbv zeta. pose proof (nth_error_lt _ _ _ _ Ep) as Li. rewrite (st_len _ _ HS) in Li. destruct (nth_error_ex _ _ _ Li) as (n & En). rewrite (lget_nth_error _ _ _ _ En). cbn [bind].
  assert (G : forall es, (forall c j, In (c, j) es -> nth_error P j = Some (p ++ [c])) -> StronglySorted N.lt (map fst es) -> forall done,
    exists ps, foldM (fun calls e => do l <- dfs_act act fuel ns (snd e) (length p + 1) (act (past p) i (length p)); Ok (calls ++ l)) es done = Ok (done ++ map call ps) /\ StronglySorted lex_lt ps /\
      forall q, In q ps <-> In q P /\ exists c r, In c (map fst es) /\ q = p ++ c :: r).
  { induction es as [|[c j] es IHes]; intros He Ss done.
    - exists []. cbn [foldM map]. rewrite app_nil_r. split; auto. split; [constructor|]. intros q. split; [intros []|]. intros (_ & c & r & [] & _).
    - cbn [map fst] in Ss. inversion Ss as [|x y S1 F1]; subst. cbn [foldM snd].
      destruct (IH j (p ++ [c])) as (ps1 & E1 & O1 & I1). { apply He. left. reflexivity. }
      { intros q Hq (r & ->). specialize (B _ Hq). assert (extends p ((p ++ [c]) ++ r)) by (exists (c :: r); rewrite <- app_assoc; reflexivity). specialize (B H). rewrite !app_length in *. cbn [length] in *. lia. }
      unfold past in E1 at 1. rewrite after_child in E1. fold past in E1. rewrite (index_ok _ _ _ (st_nodup _ _ HS) Ep) in E1. rewrite app_length in E1. cbn [length] in E1. rewrite E1. cbn [bind].
      destruct (IHes (fun c' j' H => He c' j' (or_intror H)) S1 (done ++ map call ps1)) as (ps2 & E2 & O2 & I2). rewrite E2. exists (ps1 ++ ps2).
      rewrite map_app, app_assoc. split; auto. split.
      + apply SS_app; auto. intros x y Hx Hy. apply I1 in Hx. apply I2 in Hy. destruct Hx as [_ (r & ->)]. destruct Hy as [_ (d & s & Hd & ->)]. rewrite <- app_assoc. cbn [app].
        rewrite Forall_forall in F1. apply lex_below. apply F1. exact Hd.
      + intros q. rewrite in_app_iff, I1, I2. cbn [map fst In]. split.
        * intros [[H (r & ->)]|[H (d & s & Hd & ->)]]; split; auto. { exists c, r. rewrite <- app_assoc. auto. } { exists d, s. auto. }
        * intros [H (d & s & [<-|Hd] & ->)]; [left|right]; split; auto. { exists s. rewrite <- app_assoc. reflexivity. } { exists d, s. auto. } }
  assert (He : forall c j, In (c, j) (nd_edges n) -> nth_error P j = Some (p ++ [c])) by (intros c j H; apply (st_edges _ _ HS _ _ _ En Ep); exact H).
  destruct (G (nd_edges n) He (st_sorted _ _ HS _ _ En) [(i, length p, past p)]) as (ps & E & O & I).
  exists (p :: ps). assert (X : call p = (i, length p, past p)). { unfold call. rewrite (index_ok _ _ _ (st_nodup _ _ HS) Ep). reflexivity. }
  cbn [map]. rewrite X. split; [exact E|]. split.
  - constructor; auto. apply Forall_forall. intros q Hq. apply I in Hq. destruct Hq as (_ & c & r & _ & ->). apply lex_prefix.
  - intros q. cbn [In]. rewrite I. split.
    + intros [<-|(H & c & r & _ & ->)]; [split; [eapply nth_error_In; eauto|exists []; rewrite app_nil_r; auto]|]. split; auto. exists (c :: r). reflexivity.
    + intros [H (r & ->)]. destruct r as [|c r]; [left; rewrite app_nil_r; auto|]. right. split; auto. exists c, r. split; auto.
      replace (p ++ c :: r) with ((p ++ [c]) ++ r) in H by (rewrite <- app_assoc; reflexivity). apply (closed_app _ _ HS) in H. apply In_nth_error in H. destruct H as (j & H).
      apply (st_edges _ _ HS _ _ _ En Ep) in H. apply (in_map fst _ _ H).
Qed.
Lemma dfs_act_all : forall fuel, length ns <= fuel -> exists ps, dfs_act act fuel ns 0 0 s0 = Ok (map call ps) /\ StronglySorted lex_lt ps /\ forall q, In q ps <-> In q P.
Proof using HS.
  intros fuel H. destruct (dfs_act_ok fuel 0 [] (st_root _ _ HS)) as (ps & E & O & I). { intros q Hq _. apply (path_short _ _ HS) in Hq. rewrite (st_len _ _ HS) in Hq. cbn [length]. lia. }
  exists ps. split; auto. split; auto. intros q. rewrite I. split; [tauto|]. intros Hq. split; auto. exists q. reflexivity.
Qed.
End Walk.

Lemma dfs_act_stmt : forall A (ops : list (list N * A)) t fuel, tr_run ops = Ok t -> length (tr_nodes t) <= fuel -> exists ps node,
  StronglySorted lex_lt ps /\ (forall p, In p ps <-> key_prefix ops p) /\ (forall p, In p ps -> tr_walk (tr_nodes t) 0 p = Ok (Some (node p))) /\
  forall S (act : S -> nat -> nat -> S) s, dfs_from_root act fuel (tr_nodes t) s = Ok (map (fun p => (node p, length p, after_prefixes act node s p)) ps).
Proof.
  intros A ops t fuel E F. destruct (run_ok ops) as (t0 & P & E0 & I). rewrite E in E0. injection E0 as <-. pose proof (iv_str _ _ _ I) as St.
  destruct (dfs_all _ _ St fuel F) as (ps & D & O & M). exists ps, (index_of P). split; auto. split; [intros p; rewrite M; apply (iv_pref _ _ _ I)|].
  pose proof (lex_NoDup _ O) as ND. destruct (calls_stmt _ _ _ _ _ I M) as [[C1 C2]|C]; [|contradiction]. split; auto.
  intros S act s. destruct (dfs_act_all act _ _ s St fuel F) as (ps' & D' & O' & M'). unfold dfs_from_root. rewrite D'. f_equal. f_equal.
  (* both lists are sorted and have the same members *)
  clear - O O' M M'. assert (Q : forall q, In q ps <-> In q ps') by (intros q; rewrite M, M'; reflexivity). clear M M'. revert ps' O' Q. induction O as [|x l Sl IH Fl]; intros ps' O' Q.
  - destruct ps' as [|y ps']; auto. exfalso. apply (Q y). now left.
  - destruct O' as [|y l' Sl' Fl']; [exfalso; apply (Q x); now left|]. rewrite Forall_forall in Fl, Fl'. assert (x = y).
    { destruct (proj1 (Q x) (or_introl eq_refl)) as [->|H]; auto. destruct (proj2 (Q y) (or_introl eq_refl)) as [->|H']; auto.
      exfalso. apply (lex_lt_irrefl x). eapply lex_lt_trans; [apply Fl; exact H'|apply Fl'; exact H]. }
    subst y. f_equal. apply IH; auto. intros q. split; intros H.
    + destruct (proj1 (Q q) (or_intror H)) as [->|]; auto. exfalso. apply (lex_lt_irrefl q). now apply Fl.
    + destruct (proj2 (Q q) (or_intror H)) as [->|]; auto. exfalso. apply (lex_lt_irrefl q). now apply Fl'.
Qed.

Lemma bfs_act_same : forall S (act : S -> nat -> nat -> S) fuel ns queue s,
  bfs_act act fuel ns queue s = do l <- tr_bfs_loop fuel ns queue; Ok (threaded act l s).
Proof.
  induction fuel as [|fuel IH]; intros ns [|[i d] queue] s; cbn [bfs_act tr_bfs_loop]; auto.
  destruct (lget ns i); cbn [bind]; auto. rewrite IH. destruct (tr_bfs_loop fuel ns _); reflexivity.
Qed.
Lemma bfs_act_stmt : forall A (ops : list (list N * A)) t fuel, tr_run ops = Ok t -> length (tr_nodes t) < fuel -> exists ps node,
  StronglySorted shortlex_lt ps /\ (forall p, In p ps <-> key_prefix ops p) /\ (forall p, In p ps -> tr_walk (tr_nodes t) 0 p = Ok (Some (node p))) /\
  forall S (act : S -> nat -> nat -> S) s k, k < length ps -> exists l, bfs_from_root act fuel (tr_nodes t) s = Ok l /\ length l = length ps /\
    nth_error l k = Some (node (nth k ps []), length (nth k ps []), fold_left (fun s p => act s (node p) (length p)) (firstn k ps) s).
Proof.
  intros A ops t fuel E F. destruct (bfs_stmt A ops t fuel E F) as (ps & node & O & M & W & _ & _ & D). exists ps, node. split; auto. split; auto. split; auto.
  intros S act s k Hk. unfold bfs_from_root, tr_bfs in *. rewrite bfs_act_same, D. cbn [bind]. eexists. split; [reflexivity|]. clear - Hk.
  assert (L : forall l s, length (threaded act (map (fun p => (node p, length p)) l) s) = length l) by (induction l; intros; cbn [map threaded length]; auto).
  split; [apply L|]. revert k s Hk. induction ps as [|p ps IH]; intros k s Hk; cbn [length] in Hk; [lia|]. destruct k; [reflexivity|]. cbn [map threaded nth_error nth firstn fold_left]. apply IH. lia.
Qed.
