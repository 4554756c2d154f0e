(** Samc: the code table and the storage represent the trie of the keys. *)
From Coq Require Import List NArith ZArith Arith Bool Lia Sorted.
From Verif Require Import Base Spec5 LcpProof SamcModel SamcPack SamcLevel SamcTree.
Import ListNotations.
Local Open Scope nat_scope.

Fixpoint posC (C : list (list N)) (p : list N) {struct p} : nat := match p, C with c :: p, row :: C => N.to_nat (nth (N.to_nat c) row 0%N) + posC C p | _, _ => 0 end.
Lemma posC_snoc : forall C p row c, length p = length C -> posC (C ++ [row]) (p ++ [c]) = posC C p + N.to_nat (nth (N.to_nat c) row 0%N).
Proof. induction C as [|r C IH]; intros [|x p] row c H; cbn [length] in H; try discriminate; cbn [app posC]; [lia|]. rewrite IH by lia. lia. Qed.
Lemma posC_ext : forall C X p, length p <= length C -> posC (C ++ X) p = posC C p.
Proof. induction C as [|r C IH]; intros X [|x p] H; cbn [length] in H; cbn [app posC]; try lia. rewrite IH by lia. reflexivity. Qed.
Lemma NoDup_map_in : forall (A B : Type) (f : A -> B) l, (forall x y, In x l -> In y l -> f x = f y -> x = y) -> NoDup l -> NoDup (map f l).
Proof.
  intros A B f l. induction l as [|a l IH]; intros H ND; cbn [map]; [constructor|]. inversion ND; subst. constructor.
  - intros X. apply in_map_iff in X. destruct X as (y & E & I). assert (y = a) by (apply H; [right; exact I|left; reflexivity|exact E]). subst. contradiction.
  - apply IH; auto. intros x y X Y. apply H; right; auto.
Qed.
Lemma preimages : forall (A B : Type) (f : A -> B) (P : A -> Prop) l, (forall e, In e l -> exists x, P x /\ f x = e) -> exists l', l = map f l' /\ forall x, In x l' -> P x.
Proof.
  intros A B f P. induction l as [|e l IH]; intros H. { exists []. split; auto. intros x []. }
  destruct (H e (or_introl eq_refl)) as (x & Px & E). destruct IH as (l' & -> & Q). { intros; apply H; right; auto. }
  exists (x :: l'). split; [cbn [map]; congruence|]. intros y [<-|Y]; auto.
Qed.
Lemma filter_map_comm : forall (A B : Type) (f : A -> B) g l, filter g (map f l) = map f (filter (fun x => g (f x)) l).
Proof. induction l as [|x l IH]; [reflexivity|]. cbn [map filter]. destruct (g (f x)); cbn [map]; congruence. Qed.
Lemma NoDup_app : forall (A : Type) (a b : list A), NoDup a -> NoDup b -> (forall x, In x a -> In x b -> False) -> NoDup (a ++ b).
Proof. induction a as [|x a IH]; intros b H1 H2 H3; [exact H2|]. inversion H1; subst. cbn [app]. constructor. - rewrite in_app_iff. intros [X|X]; auto. apply (H3 x); auto. left; reflexivity. - apply IH; auto. intros y Y1 Y2. apply (H3 y); auto. right; auto. Qed.

Section Build.
Variable K : list (list N).
Hypothesis HS : StronglySorted lex_lt K.
Hypothesis HB : forall k, In k K -> Forall (fun c => (0 < c < 256)%N) k.
Hypothesis HN : K <> [].
Definition node (p : list N) : Prop := sub K p <> [].
Lemma node_spec : forall p, node p <-> exists r, In (p ++ r) K.
Proof.
  clear. intros p. unfold node. split.
  - intros H. destruct (sub K p) as [|k l] eqn:E; [congruence|]. assert (X : In k (sub K p)) by (rewrite E; left; reflexivity). apply sub_in in X. destruct X as (X & r & ->). exists r. exact X.
  - intros (r & H) E. assert (X : In (p ++ r) (sub K p)) by (apply sub_in; eauto). rewrite E in X. destruct X.
Qed.
Lemma edge_node : forall p c, edgeP K p c -> node p.
Proof. clear. intros p c [[_ H]|[_ H]]; apply node_spec. - exists []. rewrite app_nil_r. exact H. - apply node_spec in H. destruct H as (r & H). exists (c :: r). rewrite <- app_assoc in H. exact H. Qed.
Lemma node_edge : forall p, node p -> exists c, edgeP K p c.
Proof using HB.
  intros p H. apply node_spec in H. destruct H as ([|c r] & H).
  - exists 0%N. left. rewrite app_nil_r in H. auto.
  - exists c. right. split; [pose proof (nonzero_in K HB p c _ r H eq_refl); lia|]. apply node_spec. exists r. rewrite <- app_assoc. exact H.
Qed.
Lemma node_snoc : forall p c, node (p ++ [c]) <-> c <> 0%N /\ edgeP K p c.
Proof using HB.
  intros p c. split.
  - intros H. assert (c <> 0%N). { apply node_spec in H. destruct H as (r & H). rewrite <- app_assoc in H. pose proof (nonzero_in K HB p c _ r H eq_refl). lia. } split; auto. right. auto.
  - intros [H [[X _]|[_ X]]]; [congruence|exact X].
Qed.
Lemma node_prefix : forall p c, node (p ++ [c]) -> node p.
Proof using HB. intros p c H. apply node_snoc in H. apply (edge_node p c). tauto. Qed.

Record Lev (d : nat) (H : list nat) (C : list (list N)) (W : list (nat * N)) (Ls : list (list N)) : Prop := {
  l_len : length H = d + 2;
  l_clen : length C = d;
  l_h : nth 0 H 0 = 0 /\ nth 1 H 0 = 1;
  l_inc : forall i, i <= d -> nth i H 0 < nth (S i) H 0;
  l_nodup : NoDup Ls;
  l_in : forall p, In p Ls <-> length p = d /\ node p;
  l_rng : forall p, length p <= d -> node p -> nth (length p) H 0 <= posC C p /\ posC C p < nth (S (length p)) H 0;
  l_inj : forall p q, length p = length q -> length p <= d -> node p -> node q -> posC C p = posC C q -> p = q;
  l_edge : forall p c, length p < d -> edgeP K p c -> (nth (S (length p)) H 0 <= posC C (p ++ [c]) /\ posC C (p ++ [c]) < nth (S (S (length p))) H 0) /\ In (posC C (p ++ [c]), c) W;
  l_wr : forall x c, In (x, c) W -> (x = 0 /\ c = 94%N) \/ exists p, length p < d /\ edgeP K p c /\ x = posC C (p ++ [c]);
  l_wnd : NoDup (map fst W);
  l_wlt : forall x c, In (x, c) W -> x < nth (S d) H 0;
  l_rows : forall i, i < d -> length (nth i C []) = 256 /\ forall c, (forall p, length p = i -> ~ edgeP K p c) -> nth (N.to_nat c) (nth i C []) 0%N = 0%N
}.
Definition queue_of (C : list (list N)) (Ls : list (list N)) := map (fun p => (posC C p, sub K p)) Ls.
Definition fe (C : list (list N)) (h0 : nat) (x : list N * N) : edge := (snd x, posC C (fst x) - h0, kids K (fst x) (snd x)).

Lemma collect_ok : forall C d h0 Ls acc, NoDup Ls -> (forall p, In p Ls -> length p = d /\ node p) ->
  exists EP, foldM (fun acc q => do es <- explore (snd q) d; Ok (acc ++ map (fun e => (fst e, fst q - h0, snd e)) es)) (queue_of C Ls) acc = Ok (acc ++ map (fe C h0) EP) /\
  NoDup EP /\ forall p c, In (p, c) EP <-> In p Ls /\ edgeP K p c.
Proof using HS HB.
  intros C d h0. induction Ls as [|p Ls IH]; intros acc ND H.
  { exists []. split; [cbn [queue_of map foldM]; rewrite app_nil_r; reflexivity|]. split; [constructor|]. intros p c. split; [intros []|intros [[] _]]. }
  inversion ND as [|x y N1 N2]; subst x y. destruct (H p (or_introl eq_refl)) as [Lp Np].
  cbn [queue_of map foldM fst snd]. destruct (explore_ok K HS HB p Np) as (es & E & NDe & I). rewrite Lp in E. rewrite E. cbn [bind].
  destruct (IH (acc ++ map (fun e => (fst e, posC C p - h0, snd e)) es) N2) as (EP & R & N3 & I3). { intros; apply H; right; auto. }
  fold (queue_of C Ls). rewrite R. exists (map (fun e => (p, fst e)) es ++ EP). split; [|split].
  - rewrite map_app, app_assoc, map_map. do 2 f_equal. f_equal. apply map_ext_in. intros [c ks] X. apply I in X. destruct X as [_ ->]. reflexivity.
  - apply NoDup_app; auto.
    + apply (NoDup_map_inv (@snd (list N) N)). rewrite map_map. cbn [snd]. exact NDe.
    + intros [q c] X Y. apply in_map_iff in X. destruct X as (e & X & _). apply I3 in Y. injection X as <- _. tauto.
  - intros q c. rewrite in_app_iff, I3, in_map_iff. cbn [In]. split.
    + intros [(e & X & Y)|[X Y]]; [|auto]. injection X as <- <-. destruct e as [e ks]. apply I in Y. cbn [fst]. tauto.
    + intros [[<-|X] Y]; [|auto]. left. exists (c, kids K p c). split; [reflexivity|]. apply I. auto.
Qed.

Theorem step_ok : forall legacy d H C W Ls, Lev d H C W Ls -> Ls <> [] -> exists E st Ls',
  collect (queue_of C Ls) d (nth d H 0) = Ok E /\
  foldM (char_step legacy (nth d H 0) (nth (S d) H 0) E) (seq 0 256) {| lv_bv := BitVectorModel.bv_default; lv_max := 0; lv_row := repeat 0%N 256; lv_map := W; lv_queue := [] |} = Ok st /\
  lv_queue st = queue_of (C ++ [lv_row st]) Ls' /\ Lev (S d) (H ++ [nth (S d) H 0 + lv_max st]) (C ++ [lv_row st]) (lv_map st) Ls'.
Proof using HS HB.
  intros legacy d H C W Ls L NE. set (h0 := nth d H 0). set (h1 := nth (S d) H 0).
  destruct (collect_ok C d h0 Ls [] (l_nodup _ _ _ _ _ L)) as (EP & CE & NDP & IP). { intros p X. apply (l_in _ _ _ _ _ L) in X. exact X. }
  cbn [app] in CE. set (E := map (fe C h0) EP) in *.
  assert (RP : forall p c, In (p, c) EP -> length p = d /\ node p /\ h0 <= posC C p /\ posC C p < h1).
  { intros p c X. apply IP in X. destruct X as [X _]. apply (l_in _ _ _ _ _ L) in X. destruct X as [X1 X2]. split; auto. split; auto. pose proof (l_rng _ _ _ _ _ L p) as R. rewrite X1 in R. apply R; auto. }
  assert (Inj : forall x y, In x EP -> In y EP -> fst (fe C h0 x) = fst (fe C h0 y) -> x = y).
  { intros [p c] [q b] X Y Q. unfold fe in Q. cbn [fst snd] in Q. injection Q as -> Q. destruct (RP p b X) as (P1 & P2 & P3 & P4). destruct (RP q b Y) as (Q1 & Q2 & Q3 & Q4).
    f_equal. apply (l_inj _ _ _ _ _ L); auto; lia. }
  destruct (level_ok h0 h1 W E) with (legacy := legacy) as (st & l & D & FS & LI & RO & ID).
  { intros e X. apply in_map_iff in X. destruct X as ([p c] & <- & X). destruct (RP p c X) as (P1 & P2 & P3 & P4). unfold fe, tc, tid. cbn [fst snd]. split; [|lia]. apply IP in X. pose proof (edgeP_byte K HB p c (proj2 X)). lia. }
  { unfold E. rewrite map_map. apply NoDup_map_in; auto. }
  destruct (preimages _ _ (fe C h0) (fun x => In x EP) D) as (DP & -> & PD). { intros e X. apply ID in X. apply in_map_iff in X. destruct X as (x & X1 & X2). eauto. }
  assert (IDP : forall p c, In (p, c) DP <-> In p Ls /\ edgeP K p c).
  { intros p c. rewrite <- IP. split; [apply PD|]. intros X. assert (Y : In (fe C h0 (p, c)) (map (fe C h0) DP)) by (apply ID; apply in_map; exact X). apply in_map_iff in Y. destruct Y as (y & Y1 & Y2).
    rewrite <- (Inj y (p, c)); auto. congruence. }
  set (row := lv_row st) in *. set (C' := C ++ [row]).
  assert (PO : forall x, In x DP -> posn h0 row (fe C h0 x) = posC C' (fst x ++ [snd x])).
  { intros [p c] X. apply PD in X. destruct (RP p c X) as (P1 & P2 & P3 & P4). unfold posn, fe, tc, tid, C'. cbn [fst snd]. rewrite posC_snoc by (rewrite (l_clen _ _ _ _ _ L); exact P1). lia. }
  assert (NDD : NoDup (map (fun x => posC C' (fst x ++ [snd x])) DP)). { pose proof (li_nodup _ _ _ _ _ _ LI) as Q. fold row in Q. rewrite map_map in Q. rewrite (map_ext_in _ _ _ PO) in Q. exact Q. }
  assert (NDP' : NoDup DP) by (apply NoDup_map_inv in NDD; exact NDD).
  assert (RG : forall p c, In (p, c) DP -> h1 <= posC C' (p ++ [c]) /\ posC C' (p ++ [c]) < h1 + lv_max st).
  { intros p c X. pose proof (li_range _ _ _ _ _ _ LI (fe C h0 (p, c)) (in_map _ _ _ X)) as Q. fold row in Q. rewrite (PO _ X) in Q. exact Q. }
  exists E, st, (map (fun x => fst x ++ [snd x]) (filter (fun x => negb (snd x =? 0)%N) DP)). split; [exact CE|]. split; [exact FS|]. split.
  { rewrite (li_queue _ _ _ _ _ _ LI). fold row. unfold queue_of. rewrite filter_map_comm, !map_map. apply map_ext_in. intros [p c] X. apply filter_In in X. destruct X as [X1 X2]. rewrite (PO _ X1). fold C'. cbn [fst snd].
    unfold fe, kids. cbn [fst snd]. destruct (c =? 0)%N eqn:Z; [cbn [snd] in X2; rewrite Z in X2; discriminate|reflexivity]. }
  fold row. fold C'. assert (LH := l_len _ _ _ _ _ L). assert (LC := l_clen _ _ _ _ _ L).
  assert (OLD : forall i, i <= S d -> nth i (H ++ [h1 + lv_max st]) 0 = nth i H 0) by (intros i Hi; apply app_nth1; lia).
  assert (NEW : nth (S (S d)) (H ++ [h1 + lv_max st]) 0 = h1 + lv_max st). { rewrite app_nth2 by lia. replace (S (S d) - length H) with 0 by lia. reflexivity. }
  assert (POLD : forall p, length p <= d -> posC C' p = posC C p) by (intros p Hp; apply posC_ext; lia).
  assert (EDP : forall p c, length p = d -> edgeP K p c -> In (p, c) DP). { intros p c X Y. apply IDP. split; auto. apply (l_in _ _ _ _ _ L). split; auto. apply (edge_node p c Y). }
  assert (LDP : forall p c, In (p, c) DP -> length p = d /\ edgeP K p c). { intros p c X. apply IDP in X. destruct X as [X Y]. apply (l_in _ _ _ _ _ L) in X. tauto. }
  assert (SNO : forall q : list N, length q = S d -> exists p c, q = p ++ [c] /\ length p = d). { intros q Hq. destruct (exists_last (l := q)) as (p & c & ->). { intros ->. discriminate. } exists p, c. split; auto. rewrite app_length in Hq. cbn [length] in Hq. lia. }
  assert (MX : 0 < lv_max st). { destruct Ls as [|p Ls]; [congruence|]. destruct (proj1 (l_in _ _ _ _ _ L p) (or_introl eq_refl)) as [P1 P2]. destruct (node_edge p P2) as (c & X). pose proof (RG p c (EDP p c P1 X)). lia. }
  assert (WM : lv_map st = W ++ map (fun x => (posC C' (fst x ++ [snd x]), snd x)) DP).
  { rewrite (li_map _ _ _ _ _ _ LI). fold row. f_equal. rewrite map_map. apply map_ext_in. intros x X. rewrite (PO _ X). reflexivity. }
  assert (EOLD : forall p c, length p < d -> posC C' (p ++ [c]) = posC C (p ++ [c])) by (intros p c X; apply POLD; rewrite app_length; cbn [length]; lia).
  split.
  - rewrite app_length. cbn [length]. lia.
  - unfold C'. rewrite app_length. cbn [length]. lia.
  - destruct (l_h _ _ _ _ _ L). rewrite !OLD by lia. auto.
  - intros i Hi. destruct (Nat.eq_dec i (S d)) as [->|Q]; [rewrite NEW, OLD by lia; fold h1; lia|]. rewrite !OLD by lia. apply (l_inc _ _ _ _ _ L). lia.
  - apply NoDup_map_in; [|apply NoDup_filter; exact NDP']. intros [p c] [q b] X Y Q. apply filter_In in X. apply filter_In in Y. cbn [fst snd] in Q. apply app_inj_tail in Q. destruct Q as [-> ->]. reflexivity.
  - intros q. rewrite in_map_iff. split.
    + intros ([p c] & <- & X). apply filter_In in X. destruct X as [X1 X2]. cbn [fst snd] in *. destruct (LDP p c X1) as [Y1 Y2]. split; [rewrite app_length; cbn [length]; lia|]. apply node_snoc. split; auto. destruct (N.eqb_spec c 0); [discriminate|auto].
    + intros [X1 X2]. destruct (SNO q X1) as (p & c & -> & Y). apply node_snoc in X2. destruct X2 as [Z1 Z2]. exists (p, c). split; [reflexivity|]. apply filter_In. split; [apply EDP; auto|]. cbn [snd]. destruct (N.eqb_spec c 0); [congruence|reflexivity].
  - intros q Lq Nq. destruct (Nat.eq_dec (length q) (S d)) as [Q|Q].
    + destruct (SNO q Q) as (p & c & -> & Y). rewrite Q, NEW, OLD by lia. fold h1. apply RG. apply EDP; auto. apply node_snoc in Nq. tauto.
    + rewrite POLD by lia. rewrite !OLD by lia. apply (l_rng _ _ _ _ _ L); auto; lia.
  - intros q r Lq Lq' Nq Nr Eqr. destruct (Nat.eq_dec (length q) (S d)) as [Q|Q].
    + destruct (SNO q Q) as (p & c & -> & Y). destruct (SNO r ltac:(lia)) as (p' & c' & -> & Y').
      assert (X1 : In (p, c) DP) by (apply EDP; auto; apply node_snoc in Nq; tauto). assert (X2 : In (p', c') DP) by (apply EDP; auto; apply node_snoc in Nr; tauto).
      destruct (In_nth _ _ (([] : list N), 0%N) X1) as (i & I1 & I2). destruct (In_nth _ _ (([] : list N), 0%N) X2) as (j & J1 & J2).
      rewrite (NoDup_nth _ 0) in NDD. rewrite map_length in NDD. assert (i = j).
      { apply NDD; auto. rewrite !(nth_indep _ 0 ((fun x : list N * N => posC C' (fst x ++ [snd x])) ([], 0%N))) by (rewrite map_length; lia).
        rewrite !(map_nth (fun x : list N * N => posC C' (fst x ++ [snd x]))). rewrite I2, J2. exact Eqr. }
      congruence.
    + rewrite !POLD in Eqr by lia. apply (l_inj _ _ _ _ _ L); auto; lia.
  - intros p c Lp Ep. rewrite WM. destruct (Nat.eq_dec (length p) d) as [Q|Q].
    + split; [rewrite Q, NEW, OLD by lia; apply RG; apply EDP; auto|]. apply in_or_app. right. apply in_map_iff. exists (p, c). split; [reflexivity|]. apply EDP; auto.
    + rewrite EOLD by lia. rewrite !OLD by lia. destruct (l_edge _ _ _ _ _ L p c ltac:(lia) Ep) as [X Y]. split; auto. apply in_or_app. left. exact Y.
  - intros x c X. rewrite WM in X. apply in_app_or in X. destruct X as [X|X].
    + apply (l_wr _ _ _ _ _ L) in X. destruct X as [X|(p & X1 & X2 & X3)]; [left; exact X|]. right. exists p. rewrite EOLD by lia. split; [lia|]. auto.
    + apply in_map_iff in X. destruct X as ([p b] & X & Y). cbn [fst snd] in X. injection X as <- <-. destruct (LDP _ _ Y). right. exists p. split; [lia|]. auto.
  - rewrite WM, map_app, map_map. cbn [fst]. apply NoDup_app; [apply (l_wnd _ _ _ _ _ L)|exact NDD|]. intros x X Y. apply in_map_iff in X. destruct X as ([x' c] & X1 & X2). cbn [fst] in X1. subst x'. apply (l_wlt _ _ _ _ _ L) in X2. fold h1 in X2.
    apply in_map_iff in Y. destruct Y as ([p b] & Y1 & Y2). cbn [fst snd] in Y1. pose proof (RG _ _ Y2). lia.
  - intros x c X. rewrite NEW. rewrite WM in X. apply in_app_or in X. destruct X as [X|X].
    + apply (l_wlt _ _ _ _ _ L) in X. fold h1 in X. lia.
    + apply in_map_iff in X. destruct X as ([p b] & X & Y). cbn [fst snd] in X. injection X as <- <-. apply RG. exact Y.
  - intros i Hi. destruct (Nat.eq_dec i d) as [->|Q].
    + unfold C'. rewrite app_nth2 by lia. replace (d - length C) with 0 by lia. cbn [nth]. destruct RO as [R1 R2]. split; auto. intros c Hc. apply R2. intros e X Y. apply in_map_iff in X. destruct X as ([p b] & <- & X). destruct (LDP _ _ X) as [Z1 Z2]. apply (Hc p Z1).
      unfold tc, fe in Y. cbn [fst snd] in Y. rewrite N2Nat.id in Y. subst b. exact Z2.
    + unfold C'. rewrite app_nth1 by lia. apply (l_rows _ _ _ _ _ L). lia.
Qed.
End Build.
