(** SA-IS: induced sorting puts every position at its place in any order that is compatible with it. *)
From Coq Require Import List NArith ZArith Arith Bool Lia Permutation Sorted.
From Verif Require Import Base SuffixModel SaisRows SaisPut.
Import ListNotations.
Local Open Scope nat_scope.

Lemma row_nth1 : forall l s k i d, i < length l -> nth i (row l s k) d = Some (nth i l 0).
Proof. intros. unfold row. rewrite app_nth1 by (rewrite map_length; auto). rewrite nth_indep with (d' := Some 0) by (rewrite map_length; auto). apply map_nth. Qed.
Lemma row_nth2 : forall l s k i d, length l <= i -> i < k - length s -> nth i (row l s k) d = None.
Proof. intros. unfold row. rewrite app_nth2 by (rewrite map_length; auto). rewrite app_nth1 by (rewrite map_length, repeat_length; lia). apply nth_repeat_lt. rewrite map_length. lia. Qed.
Lemma row_nth3 : forall l s k i d, length l + length s <= k -> k - length s <= i -> i < k -> nth i (row l s k) d = Some (nth (i - (k - length s)) s 0).
Proof.
  intros. unfold row. rewrite app_nth2 by (rewrite map_length; lia). rewrite app_nth2 by (rewrite map_length, repeat_length; lia). rewrite map_length, repeat_length.
  rewrite nth_indep with (d' := Some 0) by (rewrite map_length; lia). rewrite (map_nth Some). do 2 f_equal. lia.
Qed.
Lemma somes_unique : forall l i j p, NoDup (somes l) -> nth_error l i = Some (Some p) -> nth_error l j = Some (Some p) -> i = j.
Proof.
  assert (G : forall l i j p, NoDup (somes l) -> i < j -> nth_error l i = Some (Some p) -> nth_error l j = Some (Some p) -> False).
  { intros l i j p N L A B. apply nth_error_split in A. destruct A as (l1 & l2 & -> & Li). rewrite nth_error_app2 in B by lia. destruct (j - length l1) as [|t] eqn:T; [lia|]. cbn [nth_error] in B.
    apply nth_error_In in B. rewrite somes_app in N. apply NoDup_remove_2 with (l := somes l1) (l' := somes l2) (a := p) in N. apply N. apply in_or_app. right. apply in_somes. exact B. }
  intros l i j p N A B. destruct (lt_eq_lt_dec i j) as [[H|H]|H]; auto; exfalso; [exact (G l i j p N H A B)|exact (G l j i p N H B A)].
Qed.
Lemma in_firstn_S : forall (l : list (option nat)) i x, i < length l -> In x (firstn (S i) l) <-> In x (firstn i l) \/ x = nth i l None.
Proof.
  intros l i x H. assert (E : firstn (S i) l = firstn i l ++ [nth i l None]).
  { revert i H. induction l as [|y l IH]; intros i H; [cbn [length] in H; lia|]. destruct i; [reflexivity|]. cbn [length] in H. cbn [firstn app nth]. f_equal. apply IH. lia. }
  rewrite E, in_app_iff. cbn [In]. intuition congruence.
Qed.
Lemma skipn_nth : forall (l : list (option nat)) i, i < length l -> skipn i l = nth i l None :: skipn (S i) l.
Proof. induction l as [|y l IH]; intros i H; [cbn [length] in H; lia|]. destruct i; [reflexivity|]. cbn [length] in H. cbn [nth]. change (skipn (S i) (y :: l)) with (skipn i l). change (skipn (S (S i)) (y :: l)) with (skipn (S i) l). apply IH. lia. Qed.
Definition memo (p : nat) (l : list (option nat)) : bool := existsb (fun x => match x with Some q => q =? p | None => false end) l.
Lemma memo_spec : forall p l, memo p l = true <-> In (Some p) l.
Proof.
  intros p l. unfold memo. rewrite existsb_exists. split.
  - intros ([q|] & A & B); [|discriminate]. apply Nat.eqb_eq in B. subst q. exact A.
  - intros A. exists (Some p). split; [exact A|apply Nat.eqb_refl].
Qed.
Lemma bool_iff : forall a b, (a = true <-> b = true) -> a = b.
Proof. intros [|] [|] H; auto; [symmetry|]; apply H; reflexivity. Qed.

Lemma clear_ok : forall poses (sa : list (option nat)), (forall p, In p poses -> p < length sa) -> exists sa', foldM (fun sa pos => if pos =? 0 then Ok sa else lset sa pos None) poses sa = Ok sa' /\ length sa' = length sa /\
  forall j, nth j sa' None = if negb (j =? 0) && existsb (Nat.eqb j) poses then None else nth j sa None.
Proof.
  induction poses as [|p poses IH]; intros sa H.
  - exists sa. split; [reflexivity|]. split; auto. intros j. cbn [existsb]. rewrite andb_false_r. reflexivity.
  - cbn [foldM]. assert (Hp := H p (or_introl eq_refl)). destruct (Nat.eqb_spec p 0) as [->|Np]; cbn [bind].
    + destruct (IH sa) as (sa' & E & L & V); [intros; apply H; right; auto|]. exists sa'. split; auto. split; auto. intros j. rewrite V. cbn [existsb]. destruct (Nat.eqb_spec j 0) as [->|]; reflexivity.
    + rewrite lset_Ok by auto. cbn [bind]. destruct (IH (upd sa p None)) as (sa' & E & L & V); [intros; rewrite upd_length; apply H; right; auto|]. exists sa'. split; auto. rewrite upd_length in L. split; auto.
      intros j. rewrite V, nth_upd. cbn [existsb]. destruct (Nat.eqb_spec j p) as [->|Nj]; cbn [orb andb].
      * rewrite andb_true_r. destruct (Nat.eqb_spec p 0); [lia|]. cbn [negb andb]. destruct (Nat.ltb_spec p (length sa)); [|lia]. destruct (existsb _ _); reflexivity.
      * reflexivity.
Qed.

Section Step1.
Variables (str : list N) (maxv : nat).
Hypothesis HV : ended str maxv.
Notation n := (length str).
Notation m := (S maxv).
Notation ts := (classified str).
Notation lms := (find_lms (classified str)).

Lemma in_lms : forall p, In p lms <-> lmsb str p = true.
Proof.
  intros p. unfold find_lms. rewrite filter_In, in_seq. fold (lmsb str p). split; [tauto|]. intros H. split; auto. apply (lmsb_spec str maxv HV) in H. rewrite (ts_len str maxv HV). lia.
Qed.
Lemma nodup_lms : NoDup lms.
Proof. unfold find_lms. apply NoDup_filter, seq_NoDup. Qed.
Lemma flat_none : forall k, concat (map (fun c => repeat (@None nat) (cnt str c)) (seq 0 k)) = repeat None (start (cnt str) k).
Proof. induction k as [|k IH]; [reflexivity|]. rewrite seq_S, map_app, concat_app, IH, start_S, repeat_app. cbn [Nat.add map concat]. rewrite app_nil_r. reflexivity. Qed.

(** *** Step 1 *)
Lemma lms_phase : forall bs0, length bs0 = m -> (forall c, c < m -> nth_error bs0 c = Some (bucket_at str c 0 0)) -> forall order, NoDup order -> (forall i, In i order -> i < length lms) ->
  exists bs sa poses, foldM (put_lms str lms) order (bs0, repeat None n, repeat 0 (length lms)) = Ok (bs, sa, poses) /\
    St str maxv false bs sa (fun _ => []) (fun c => filter (fun p => ch str p =? c) (map (fun i => nth i lms 0) (rev order))) /\
    length poses = length lms /\ forall i, In i order -> nth_error sa (nth i poses 0) = Some (Some (nth i lms 0)).
Proof.
  intros bs0 B1 B2. induction order as [|i order IH] using rev_ind; intros ND IN.
  - exists bs0, (repeat None n), (repeat 0 (length lms)). split; [reflexivity|]. split; [|split; [apply repeat_length|intros i []]]. split; auto.
    + unfold pic, flat. rewrite <- (start_m str maxv HV), <- flat_none. f_equal. apply map_ext. intros c. unfold cells, row. cbn [map app rev filter length]. rewrite !Nat.sub_0_r, app_nil_r. reflexivity.
    + intros c C. cbn. lia.
  - assert (ND' := NoDup_remove order [] i ND). rewrite app_nil_r in ND'. destruct ND' as [ND1 NI].
    destruct IH as (bs & sa & poses & E & S0 & LP & PP); auto. { intros j J. apply IN. apply in_or_app. left; auto. }
    rewrite foldM_app, E. cbn [bind foldM]. assert (Hi : i < length lms) by (apply IN, in_or_app; right; left; auto).
    unfold put_lms. rewrite (lget_nth _ _ i 0) by auto. cbn [bind]. set (id := nth i lms 0).
    assert (Hid : lmsb str id = true) by (apply in_lms, nth_In; auto). destruct (proj1 (lmsb_spec str maxv HV id) Hid) as (_ & Ln & _).
    rewrite (lget_nth _ _ id 0%N) by auto. cbn [bind]. set (x := nth id str 0%N). assert (Ex : N.to_nat x = ch str id) by reflexivity.
    set (Q := map (fun i => nth i lms 0) (rev order)) in *.
    assert (NQ : NoDup (id :: Q)).
    { assert (G : forall l, NoDup l -> (forall j, In j l -> j < length lms) -> NoDup (map (fun i => nth i lms 0) l)).
      { intros l N0 I0. induction N0; [constructor|]. cbn [map]. constructor; [|apply IHN0; intros; apply I0; right; auto]. intros X. apply in_map_iff in X. destruct X as (j & Ej & J).
        assert (j = x0); [|congruence]. apply (proj1 (NoDup_nth lms 0) nodup_lms); auto; apply I0; [right|left]; auto. }
      change (id :: Q) with (map (fun i => nth i lms 0) (i :: rev order)). apply G. - constructor; [rewrite <- in_rev; auto|]. apply NoDup_rev; auto.
      - intros j [<-|J]; auto. apply IN, in_or_app. left. apply in_rev; auto. }
    destruct (put_right str maxv HV false bs sa _ _ x id S0) as (bs' & sa' & pos & EP & S' & K & PO).
    { rewrite Ex. apply (ch_lt str maxv HV). auto. } { discriminate. }
    { rewrite Ex. cbn [length Nat.add]. apply Nat.lt_le_trans with (length (id :: filter (fun p => ch str p =? ch str id) Q)); [cbn [length]; lia|]. apply (cap str maxv HV).
      - inversion NQ; subst. constructor; [|apply NoDup_filter; auto]. intros X. apply filter_In in X. tauto.
      - intros p [<-|P]; [auto|]. apply filter_In in P. destruct P as [P1 P2]. apply Nat.eqb_eq in P2. split; auto. unfold Q in P1. apply in_map_iff in P1. destruct P1 as (j & <- & J). apply in_rev in J.
        assert (Hj : j < length lms) by (apply IN, in_or_app; left; auto). apply (lmsb_spec str maxv HV). apply in_lms, nth_In. auto. }
    rewrite EP. cbn [bind]. rewrite lset_Ok by lia. cbn [bind]. exists bs', sa', (upd poses i pos). split; [reflexivity|]. split; [|split; [rewrite upd_length; auto|]].
    + eapply St_ext; [exact HV|exact S'| |]. * intros; reflexivity.
      * intros c C. cbv beta. unfold putf. rewrite Ex, rev_app_distr. cbn [rev app map filter]. fold id. fold Q. rewrite (Nat.eqb_sym c). destruct (Nat.eqb_spec (ch str id) c) as [->|]; reflexivity.
    + intros j J. rewrite nth_upd, LP. destruct (Nat.eqb_spec j i) as [->|Nj]; cbn [andb].
      * destruct (Nat.ltb_spec i (length lms)); [exact PO|lia].
      * apply K, PP. apply in_app_or in J. destruct J as [J|[J|[]]]; [auto|congruence].
Qed.

End Step1.

Section Induce.
Variables (str : list N) (maxv : nat).
Hypothesis HV : valid str maxv.
Notation n := (length str).
Notation m := (S maxv).
Notation ts := (classified str).
Notation lms := (find_lms (classified str)).

(** *** Step 2 *)
Variables (lt1 lt2 : nat -> nat -> Prop) (FL SL FS : nat -> list nat).
Hypothesis HFL : forall c p, In p (FL c) <-> p < n /\ ch str p = c /\ ty str p = false.
Hypothesis HSL : forall c p, In p (SL c) <-> lmsb str p = true /\ ch str p = c.
Hypothesis HFS : forall c p, In p (FS c) <-> p < n /\ ch str p = c /\ ty str p = true.
Let U1 := concat (map (fun c => FL c ++ SL c) (seq 0 m)).
Let U2 := concat (map (fun c => FL c ++ FS c) (seq 0 m)).
Hypothesis HU1 : StronglySorted lt1 U1.
Hypothesis HU2 : StronglySorted lt2 U2.
Hypothesis asym1 : forall p q, lt1 p q -> ~ lt1 q p.
Hypothesis asym2 : forall p q, lt2 p q -> ~ lt2 q p.
Hypothesis step1 : forall p q, p < n -> q < n -> ty str p = false -> ty str q = false -> ch str p = ch str q -> lt1 p q -> lt1 (S p) (S q).
Hypothesis succ1 : forall p, p < n -> ty str p = false -> lt1 (S p) p.
Hypothesis step2 : forall p q, S p < n -> S q < n -> ty str p = true -> ty str q = true -> ch str p = ch str q -> lt2 p q -> lt2 (S p) (S q).
Hypothesis succ2 : forall p, S p < n -> ty str p = true -> lt2 p (S p).
Let T1 := pic str maxv FL SL.
Let T2 := pic str maxv FL FS.

Lemma in_U : forall (f g : nat -> list nat) p, In p (concat (map (fun c => f c ++ g c) (seq 0 m))) <-> exists c, c < m /\ (In p (f c) \/ In p (g c)).
Proof.
  intros f g p. rewrite in_concat. split.
  - intros (l & A & B). apply in_map_iff in A. destruct A as (c & <- & C). apply in_seq in C. exists c. split; [lia|]. apply in_app_or. exact B.
  - intros (c & C & H). exists (f c ++ g c). split; [|apply in_or_app; exact H]. apply in_map_iff. exists c. split; auto. apply in_seq. lia.
Qed.
Lemma in_U1 : forall p, In p U1 <-> p < n /\ (ty str p = false \/ lmsb str p = true).
Proof.
  intros p. unfold U1. rewrite in_U. split.
  - intros (c & C & [H|H]); [apply HFL in H; tauto|apply HSL in H; destruct H as [H _]; split; auto]. apply (lmsb_spec str maxv HV) in H. tauto.
  - intros (H & T). exists (ch str p). split; [apply (ch_lt str maxv HV); auto|]. destruct T as [T|T]; [left; apply HFL; auto|right; apply HSL; auto].
Qed.
Lemma in_U2 : forall p, In p U2 <-> p < n.
Proof.
  intros p. unfold U2. rewrite in_U. split.
  - intros (c & C & [H|H]); [apply HFL in H; tauto|apply HFS in H; tauto].
  - intros H. exists (ch str p). split; [apply (ch_lt str maxv HV); auto|]. destruct (ty str p) eqn:T; [right; apply HFS; auto|left; apply HFL; auto].
Qed.
Lemma somes_T1 : somes T1 = U1.
Proof. unfold T1, pic. rewrite somes_flat. unfold U1. f_equal. apply map_ext. intros c. apply somes_row. Qed.
Lemma somes_T2 : somes T2 = U2.
Proof. unfold T2, pic. rewrite somes_flat. unfold U2. f_equal. apply map_ext. intros c. apply somes_row. Qed.
Lemma nd1 : NoDup U1.
Proof. apply ss_nodup with (lt := lt1); auto. intros x X. exact (asym1 x x X X). Qed.
Lemma nd2 : NoDup U2.
Proof. apply ss_nodup with (lt := lt2); auto. intros x X. exact (asym2 x x X X). Qed.
Lemma part_nodup : forall (f g : nat -> list nat) c, c < m -> NoDup (concat (map (fun c => f c ++ g c) (seq 0 m))) -> NoDup (f c ++ g c).
Proof.
  intros f g c C N. rewrite (seq_split m c C), map_app, concat_app in N. cbn [map concat] in N.
  assert (G : forall (a b : list nat), NoDup (a ++ b) -> NoDup a /\ NoDup b). { induction a as [|x a IHa]; intros b Q; [split; [constructor|exact Q]|]. inversion Q; subst. destruct (IHa b H2). split; auto. constructor; auto. intros X. apply H1. apply in_or_app. left; auto. }
  apply G in N. destruct N as [_ N]. apply G in N. tauto.
Qed.
Lemma cap1 : forall c, c < m -> length (FL c) + length (SL c) <= cnt str c.
Proof.
  intros c C. rewrite <- app_length. apply (cap str maxv HV); [apply (part_nodup FL SL c C nd1)|]. intros p P. apply in_app_or in P. destruct P as [P|P]; [apply HFL in P; tauto|].
  apply HSL in P. destruct P as [P E]. split; auto. apply (lmsb_spec str maxv HV) in P. tauto.
Qed.
Lemma cap2 : forall c, c < m -> length (FL c) + length (FS c) <= cnt str c.
Proof.
  intros c C. rewrite <- app_length. apply (cap str maxv HV); [apply (part_nodup FL FS c C nd2)|]. intros p P. apply in_app_or in P. destruct P as [P|P]; [apply HFL in P; tauto|apply HFS in P; tauto].
Qed.
Lemma T1_len : length T1 = n.
Proof. apply (pic_length str maxv HV); auto. apply cap1. Qed.
Lemma T2_len : length T2 = n.
Proof. apply (pic_length str maxv HV); auto. apply cap2. Qed.
Lemma ss_c1 : forall c, c < m -> StronglySorted lt1 (FL c ++ SL c).
Proof. intros c C. assert (H := HU1). unfold U1 in H. rewrite (seq_split m c C), map_app, concat_app in H. cbn [map concat] in H. apply ss_app_inv in H. destruct H as (_ & H & _). apply ss_app_inv in H. tauto. Qed.
Lemma ss_c2 : forall c, c < m -> StronglySorted lt2 (FL c ++ FS c).
Proof. intros c C. assert (H := HU2). unfold U2 in H. rewrite (seq_split m c C), map_app, concat_app in H. cbn [map concat] in H. apply ss_app_inv in H. destruct H as (_ & H & _). apply ss_app_inv in H. tauto. Qed.
(** what is smaller than something already passed has been passed *)
Lemma before1 : forall i x y, In (Some y) (firstn i T1) -> In x U1 -> lt1 x y -> In (Some x) (firstn i T1).
Proof.
  intros i x y Y X L. rewrite <- somes_T1, <- (firstn_skipn i T1), somes_app in X. apply in_app_or in X. destruct X as [X|X]; [apply in_somes; exact X|exfalso].
  assert (H := HU1). rewrite <- somes_T1, <- (firstn_skipn i T1), somes_app in H. apply ss_app_inv in H. destruct H as (_ & _ & H). apply (asym1 x y L). apply H; auto. apply in_somes. exact Y.
Qed.
Lemma not_before1 : forall i x, i < n -> nth i T1 None = Some x -> ~ In (Some x) (firstn i T1).
Proof.
  intros i x Hi E X. assert (N := nd1). rewrite <- somes_T1, <- (firstn_skipn i T1), somes_app, (skipn_nth T1 i) in N by (rewrite T1_len; auto). rewrite E in N.
  apply NoDup_remove_2 with (l := somes (firstn i T1)) (l' := somes (skipn (S i) T1)) (a := x) in N. apply N. apply in_or_app. left. apply in_somes. exact X.
Qed.
Definition Lq (i c : nat) : list nat := filter (fun p => memo (S p) (firstn i T1)) (FL c).
Lemma Lq_prefix : forall i c, c < m -> FL c = Lq i c ++ filter (fun p => negb (memo (S p) (firstn i T1))) (FL c).
Proof.
  intros i c C. apply ss_filter_split with (lt := lt1). - apply ss_app_inv with (b := SL c). apply ss_c1; auto.
  - intros x y X Y L My. apply memo_spec in My. apply memo_spec. apply HFL in X, Y. destruct X as (X1 & X2 & X3), Y as (Y1 & Y2 & Y3). apply (before1 i (S x) (S y)); auto.
    + apply in_U1. apply (succ_L str maxv HV); auto. + apply step1; auto. congruence.
Qed.
Lemma Lq_cap : forall i c, c < m -> length (Lq i c) + length (SL c) <= cnt str c.
Proof. intros i c C. pose proof (cap1 c C). rewrite (Lq_prefix i c C), app_length in H. lia. Qed.
Lemma read1 : forall i, i < n -> nth i (pic str maxv (Lq i) SL) None = nth i T1 None.
Proof.
  intros i Hi. rewrite <- (start_m str maxv HV) in Hi. destruct (flat_index _ _ _ Hi) as (c & k & C & K & ->). set (i := start (cnt str) c + k) in *. rewrite (start_m str maxv HV) in Hi.
  assert (R2 : nth i T1 None = nth k (cells str FL SL c) None) by (unfold T1, pic, i; apply (flat_nth (cnt str)); auto; apply (cells_fit str maxv HV), cap1).
  assert (R1 : nth i (pic str maxv (Lq i) SL) None = nth k (cells str (Lq i) SL c) None) by (unfold pic, i; apply (flat_nth (cnt str)); auto; apply (cells_fit str maxv HV), Lq_cap).
  rewrite R1. rewrite R2 in *. unfold cells in *. pose proof (Lq_prefix i c C) as P. pose proof (cap1 c C) as C1. pose proof (Lq_cap i c C) as C2.
  destruct (lt_dec k (length (Lq i c))) as [A|A].
  - rewrite !row_nth1 by (auto; rewrite P, app_length; lia). rewrite P at 1. rewrite app_nth1 by auto. reflexivity.
  - destruct (lt_dec k (cnt str c - length (SL c))) as [B|B].
    + rewrite row_nth2 by lia. destruct (lt_dec k (length (FL c))) as [D|D]; [exfalso|rewrite row_nth2 by lia; reflexivity].
      rewrite row_nth1 in R2 by auto. set (p := nth k (FL c) 0) in *. assert (Pin : In p (FL c)) by (apply nth_In; auto).
      assert (NP : ~ In (Some (S p)) (firstn i T1)).
      { assert (Q : In p (filter (fun p => negb (memo (S p) (firstn i T1))) (FL c))). { replace p with (nth (k - length (Lq i c)) (filter (fun p => negb (memo (S p) (firstn i T1))) (FL c)) 0); [|unfold p; rewrite P at 2; rewrite app_nth2 by lia; reflexivity]. apply nth_In. rewrite P, app_length in D. lia. }
        apply filter_In in Q. destruct Q as [_ Q]. intros X. apply memo_spec in X. rewrite X in Q. discriminate. }
      apply HFL in Pin. destruct Pin as (P1 & P2 & P3). assert (SU : In (S p) U1) by (apply in_U1; apply (succ_L str maxv HV); auto).
      assert (X : In (Some (S p)) (firstn (S i) T1)). { apply before1 with p; auto. apply in_firstn_S; [rewrite T1_len; auto|]. right. symmetry. exact R2. }
      apply in_firstn_S in X; [|rewrite T1_len; auto]. destruct X as [X|X]; [auto|]. rewrite R2 in X. injection X as X. lia.
    + rewrite !row_nth3 by lia. reflexivity.
Qed.
Lemma step_left : forall bs sa i, i < n -> St str maxv false bs sa (Lq i) SL -> exists bs' sa', induce_step str ts false (bs, sa) i = Ok (bs', sa') /\ St str maxv false bs' sa' (Lq (S i)) SL /\ keeps sa sa'.
Proof.
  intros bs sa i Hi S0. assert (LS : length sa = n). { rewrite (st_sa _ _ _ _ _ _ _ S0). apply (pic_length str maxv HV); auto. apply Lq_cap. }
  unfold induce_step. rewrite (lget_nth _ _ i None) by lia. cbn [bind]. assert (Rd : nth i sa None = nth i T1 None) by (rewrite (st_sa _ _ _ _ _ _ _ S0); apply read1; auto). rewrite Rd.
  assert (FS1 : forall x, In x (firstn (S i) T1) <-> In x (firstn i T1) \/ x = nth i T1 None) by (intros; apply in_firstn_S; rewrite T1_len; auto).
  assert (Stay : (forall p, p < n -> ty str p = false -> nth i T1 None <> Some (S p)) -> St str maxv false bs sa (Lq (S i)) SL).
  { intros H. eapply St_ext; [exact HV|exact S0| |auto]. intros c C. unfold Lq. apply filter_ext_in. intros p P. apply HFL in P. destruct P as (P1 & P2 & P3). apply bool_iff. rewrite !memo_spec, FS1. split; [|auto].
    intros [X|X]; [auto|]. exfalso. apply (H p); auto. }
  destruct (nth i T1 None) as [[|id]|] eqn:X.
  - exists bs, sa. split; [reflexivity|]. split; [|intros j p; auto]. apply Stay. congruence.
  - assert (Hx : In (S id) U1). { rewrite <- somes_T1. apply in_somes. rewrite <- X. apply nth_In. rewrite T1_len. auto. }
    apply in_U1 in Hx. destruct Hx as [Hx _]. rewrite (lget_nth _ _ id true) by (rewrite (ts_len str maxv HV); lia). cbn [bind]. fold (ty str id).
    destruct (ty str id) eqn:TY; cbn [Bool.eqb].
    + exists bs, sa. split; [reflexivity|]. split; [|intros j p; auto]. apply Stay. intros p P1 P2 E. injection E as <-. congruence.
    + rewrite (lget_nth _ _ id 0%N) by lia. cbn [bind]. set (x := nth id str 0%N). assert (Ex : N.to_nat x = ch str id) by reflexivity.
      assert (Cx : ch str id < m) by (apply (ch_lt str maxv HV); lia). assert (Hid : In id (FL (ch str id))) by (apply HFL; split; [lia|auto]).
      assert (Nid : ~ In (Some (S id)) (firstn i T1)) by (apply not_before1; auto).
      assert (Enew : Lq (S i) (ch str id) = Lq i (ch str id) ++ [id]).
      { unfold Lq. destruct (in_split _ _ Hid) as (l1 & l2 & E). assert (SS := ss_c1 _ Cx). apply ss_app_inv in SS. destruct SS as (SS & _ & _). 
        assert (I1 : forall p, In p l1 -> In (Some (S p)) (firstn i T1)).
        { intros p P. assert (Pin : In p (FL (ch str id))) by (rewrite E; apply in_or_app; left; auto). apply HFL in Pin. destruct Pin as (P1 & P2 & P3).
          rewrite E in SS. apply ss_app_inv in SS. destruct SS as (_ & _ & SS). specialize (SS p id P (or_introl eq_refl)).
          assert (Y : In (Some (S p)) (firstn (S i) T1)). { apply before1 with (S id). - apply FS1. right. auto. - apply in_U1. apply (succ_L str maxv HV); auto. - apply step1; auto. lia. }
          apply FS1 in Y. destruct Y as [Y|Y]; auto. injection Y as ->. exfalso. exact (asym1 _ _ SS SS). }
        assert (I2 : forall p, In p l2 -> ~ In (Some (S p)) (firstn (S i) T1)).
        { intros p P Y. assert (Pin : In p (FL (ch str id))) by (rewrite E; apply in_or_app; right; right; auto). apply HFL in Pin. destruct Pin as (P1 & P2 & P3).
          rewrite E in SS. apply ss_app_inv in SS. destruct SS as (_ & SS & _). inversion SS; subst. assert (L := proj1 (Forall_forall _ _) H2 p P). 
          assert (L' : lt1 (S id) (S p)) by (apply step1; auto; lia). apply FS1 in Y. destruct Y as [Y|Y].
          - apply Nid. apply before1 with (S p); auto. apply in_U1. split; auto. apply (succ_L str maxv HV); auto. lia.
          - injection Y as ->. exact (asym1 _ _ L' L'). }
        rewrite E, !filter_app. cbn [filter].
        assert (M1 : memo (S id) (firstn i T1) = false) by (destruct (memo (S id) (firstn i T1)) eqn:Q; auto; apply memo_spec in Q; contradiction).
        assert (M2 : memo (S id) (firstn (S i) T1) = true) by (apply memo_spec, FS1; right; auto). rewrite M1, M2.
        assert (A1 : forall f, (forall p, In p l1 -> f p = true) -> filter f l1 = l1). { clear. induction l1 as [|y l IH]; intros f H; [reflexivity|]. cbn [filter]. rewrite H by (left; auto). f_equal. apply IH. intros; apply H; right; auto. }
        assert (A2 : forall f, (forall p, In p l2 -> f p = false) -> filter f l2 = []). { clear. induction l2 as [|y l IH]; intros f H; [reflexivity|]. cbn [filter]. rewrite H by (left; auto). apply IH. intros; apply H; right; auto. }
        assert (NM : forall p j, ~ In (Some p) (firstn j T1) -> memo p (firstn j T1) = false) by (intros p j Q; destruct (memo p (firstn j T1)) eqn:Q'; auto; apply memo_spec in Q'; contradiction).
        rewrite !A1, !A2; [now rewrite app_nil_r| | | |]; intros p P.
        - apply NM. intros Y. apply (I2 p P). apply FS1. auto.
        - apply NM. auto.
        - apply memo_spec. auto.
        - apply memo_spec, FS1. left. auto. }
      assert (Eold : forall c, c < m -> c <> ch str id -> Lq (S i) c = Lq i c).
      { intros c C Nc. unfold Lq. apply filter_ext_in. intros p P. apply HFL in P. destruct P as (P1 & P2 & P3). apply bool_iff. rewrite !memo_spec, FS1. split; [|auto]. intros [Y|Y]; auto. injection Y as ->. congruence. }
      destruct (put_left str maxv HV false bs sa _ _ x id S0) as (bs' & sa' & pos & EP & S' & K).
      { rewrite Ex. auto. } { discriminate. } { rewrite Ex. pose proof (Lq_cap (S i) _ Cx) as CC. rewrite Enew, app_length in CC. cbn [length] in CC. lia. }
      rewrite EP. cbn [bind]. exists bs', sa'. split; [reflexivity|]. split; auto. eapply St_ext; [exact HV|exact S'| |auto]. intros c C. unfold putf. rewrite Ex. destruct (Nat.eqb_spec c (ch str id)) as [->|Nc]; auto.
  - exists bs, sa. split; [reflexivity|]. split; [|intros j p; auto]. apply Stay. congruence.
Qed.
Lemma left_phase : forall bs sa, St str maxv false bs sa (fun _ => []) SL -> exists bs' sa', foldM (induce_step str ts false) (seq 0 n) (bs, sa) = Ok (bs', sa') /\ St str maxv false bs' sa' FL SL /\ keeps sa sa'.
Proof.
  intros bs sa S0. assert (G : forall k, k <= n -> exists bs' sa', foldM (induce_step str ts false) (seq 0 k) (bs, sa) = Ok (bs', sa') /\ St str maxv false bs' sa' (Lq k) SL /\ keeps sa sa').
  { induction k as [|k IH]; intros Hk.
    - exists bs, sa. split; [reflexivity|]. split; [|intros j p; auto]. eapply St_ext; [exact HV|exact S0| |auto]. intros c C. unfold Lq. cbn [firstn memo existsb]. induction (FL c); auto.
    - destruct IH as (bs1 & sa1 & E & S1 & K1); [lia|]. destruct (step_left bs1 sa1 k Hk S1) as (bs2 & sa2 & E2 & S2 & K2). exists bs2, sa2. rewrite seq_S, foldM_app, E. cbn [bind foldM Nat.add]. rewrite E2. split; [reflexivity|]. split; auto. intros j p J. apply K2, K1, J. }
  destruct (G n (le_n n)) as (bs' & sa' & E & S1 & K). exists bs', sa'. split; auto. split; auto. eapply St_ext; [exact HV|exact S1| |auto]. intros c C. unfold Lq. rewrite firstn_all2 by (rewrite T1_len; auto).
  symmetry. assert (A : forall p, In p (FL c) -> memo (S p) T1 = true). { intros p P. apply HFL in P. destruct P as (P1 & P2 & P3). apply memo_spec. apply in_somes. rewrite somes_T1. apply in_U1. apply (succ_L str maxv HV); auto. }
  induction (FL c) as [|y l IH]; [reflexivity|]. cbn [filter]. rewrite A by (left; auto). f_equal. apply IH. intros; apply A; right; auto.
Qed.

(** *** Step 3: the LMS suffixes are removed again, except the last *)
Lemma FL0 : FL 0 = [].
Proof. destruct (FL 0) as [|p l] eqn:E; auto. exfalso. assert (P : In p (FL 0)) by (rewrite E; left; auto). apply HFL in P. destruct P as (P1 & P2 & P3). apply (ch_zero str maxv HV) in P2; auto. subst p. rewrite (ty_last str maxv HV) in P3. discriminate. Qed.
Lemma single : forall (l : list nat) (x : nat), NoDup l -> (forall p, In p l <-> p = x) -> l = [x].
Proof.
  intros [|y [|z l]] x N H. - exfalso. apply (proj2 (H x) eq_refl). - f_equal. apply H. left; auto.
  - exfalso. inversion N; subst. apply H2. left. transitivity x; [|symmetry]; apply H; [right; left|left]; auto.
Qed.
Lemma m_pos : 0 < m.
Proof. lia. Qed.
Lemma part_nodup_r : forall (f g : nat -> list nat) c, c < m -> NoDup (concat (map (fun c => f c ++ g c) (seq 0 m))) -> NoDup (g c).
Proof. intros f g c C N. apply part_nodup with (c := c) in N; auto. induction (f c) as [|x l IH]; auto. inversion N; auto. Qed.
Lemma zero_pos : forall p, p < n -> ch str p = 0 <-> p = n - 1.
Proof. intros p H. split; [apply (ch_zero str maxv HV); auto|intros ->; apply (ch_last str maxv HV)]. Qed.
Lemma n_pos : n - 1 < n.
Proof. pose proof (n2 str maxv HV). lia. Qed.
Lemma SL0 : SL 0 = [n - 1].
Proof.
  apply single; [exact (part_nodup_r FL SL 0 m_pos nd1)|]. intros p. rewrite HSL. split.
  - intros [P Q]. apply zero_pos; auto. apply (lmsb_spec str maxv HV) in P. tauto.
  - intros ->. split; [apply (lms_last str maxv HV)|apply (ch_last str maxv HV)].
Qed.
Lemma FS0 : FS 0 = [n - 1].
Proof.
  apply single; [exact (part_nodup_r FL FS 0 m_pos nd2)|]. intros p. rewrite HFS. split.
  - intros (P & Q & _). apply zero_pos; auto.
  - intros ->. split; [apply n_pos|]. split; [apply (ch_last str maxv HV)|apply (ty_last str maxv HV)].
Qed.
Lemma start_pos : forall c, 0 < c -> 1 <= start (cnt str) c.
Proof. intros c H. pose proof (start_mono (cnt str) 1 c H) as M. unfold start at 1 in M. cbn in M. rewrite (cnt_zero str maxv HV) in M. lia. Qed.
Definition S0 (c : nat) : list nat := if c =? 0 then [n - 1] else [].
Lemma clear_phase : forall bs sa poses, St str maxv false bs sa FL SL -> length poses = length lms -> (forall i, i < length lms -> nth_error sa (nth i poses 0) = Some (Some (nth i lms 0))) ->
  exists sa', foldM (fun sa pos => if pos =? 0 then Ok sa else lset sa pos None) poses sa = Ok sa' /\ St str maxv true (map bk_init_s bs) sa' FL S0.
Proof.
  intros bs sa poses SA LP PP. assert (LS : length sa = n) by (rewrite (st_sa _ _ _ _ _ _ _ SA); apply T1_len).
  destruct (clear_ok poses sa) as (sa' & E & L' & V). { intros p P. destruct (In_nth _ _ 0 P) as (i & Hi & <-). specialize (PP i ltac:(lia)). apply nth_error_Some. congruence. }
  assert (C0 : forall c, c < m -> length (FL c) + length (S0 c) <= cnt str c).
  { intros c C. pose proof (cap1 c C) as K. unfold S0. destruct (Nat.eqb_spec c 0) as [->|]; [rewrite SL0 in K; exact K|cbn [length]; lia]. }
  exists sa'. split; auto. split.
  - apply nth_ext with (d := None) (d' := None). { rewrite L', LS. symmetry. apply (pic_length str maxv HV); auto. }
    intros i Hi. rewrite L', LS in Hi. rewrite V. pose proof Hi as Hi'. rewrite <- (start_m str maxv HV) in Hi'. destruct (flat_index _ _ _ Hi') as (c & k & C & K & Ei).
    assert (R1 : nth i sa None = nth k (cells str FL SL c) None). { rewrite (st_sa _ _ _ _ _ _ _ SA), Ei. unfold pic. apply (flat_nth (cnt str)); auto. apply (cells_fit str maxv HV), cap1. }
    assert (R2 : nth i (pic str maxv FL S0) None = nth k (cells str FL S0 c) None). { rewrite Ei. unfold pic. apply (flat_nth (cnt str)); auto. apply (cells_fit str maxv HV); auto. }
    rewrite R2. destruct (Nat.eq_dec c 0) as [->|Nc].
    + rewrite (cnt_zero str maxv HV) in K. assert (i = 0) as Z by (rewrite Ei; unfold start; cbn; lia). rewrite Z at 1. cbn [Nat.eqb negb andb]. rewrite R1. unfold cells. rewrite SL0. reflexivity.
    + pose proof (start_pos c ltac:(lia)) as SP. destruct (Nat.eqb_spec i 0); [lia|]. cbn [negb andb]. pose proof (cap1 c C) as K1. pose proof (C0 c C) as K2.
      assert (ES : S0 c = []). { unfold S0. destruct (Nat.eqb_spec c 0); [lia|reflexivity]. }
      assert (IN : existsb (Nat.eqb i) poses = true <-> exists p, nth_error sa i = Some (Some p) /\ lmsb str p = true).
      { rewrite existsb_exists. split.
        - intros (j & J & Q). apply Nat.eqb_eq in Q. subst j. destruct (In_nth _ _ 0 J) as (t & Ht & <-). exists (nth t lms 0). split; [apply PP; lia|]. apply (in_lms str maxv HV). apply nth_In. lia.
        - intros (p & P1 & P2). apply (in_lms str maxv HV) in P2. destruct (In_nth _ _ 0 P2) as (t & Ht & <-). specialize (PP t Ht). exists (nth t poses 0). split; [apply nth_In; lia|]. apply Nat.eqb_eq.
          apply (somes_unique sa i _ (nth t lms 0)); auto. rewrite (st_sa _ _ _ _ _ _ _ SA). change (NoDup (somes T1)). rewrite somes_T1. apply nd1. }
      assert (NE : forall p, nth i sa None = Some p -> nth_error sa i = Some (Some p)). { intros p P. rewrite <- P. apply nth_error_nth'. lia. }
      unfold cells in *. rewrite ES in *. destruct (lt_dec k (length (FL c))) as [A|A].
      * rewrite row_nth1 in R1 by auto. rewrite row_nth1 by auto. rewrite R1. destruct (existsb (Nat.eqb i) poses) eqn:Q; auto. exfalso. destruct (proj1 IN eq_refl) as (p & P1 & P2). apply NE in R1. rewrite R1 in P1. injection P1 as P1.
        assert (X : In p (FL c)) by (rewrite <- P1; apply nth_In; auto). apply HFL in X. apply (lmsb_spec str maxv HV) in P2. destruct X as (_ & _ & X), P2 as (_ & _ & _ & P2). congruence.
      * rewrite row_nth2 by (cbn [length]; lia). destruct (lt_dec k (cnt str c - length (SL c))) as [B|B].
        -- rewrite row_nth2 in R1 by lia. rewrite R1. destruct (existsb _ _); reflexivity.
        -- rewrite row_nth3 in R1 by lia. assert (Q : existsb (Nat.eqb i) poses = true); [|rewrite Q; reflexivity]. apply IN. eexists. split; [apply NE; exact R1|].
           assert (X : In (nth (k - (cnt str c - length (SL c))) (SL c) 0) (SL c)) by (apply nth_In; lia). apply HSL in X. tauto.
  - rewrite map_length. apply (st_len _ _ _ _ _ _ _ SA).
  - intros c C Z. specialize (Z eq_refl). rewrite nth_error_map, (st_bs _ _ _ _ _ _ _ SA c C) by discriminate. cbn [option_map]. unfold bk_init_s, bucket_at. cbn [bk_index bk_count bk_l bk_s].
    unfold S0. destruct (Nat.eqb_spec c 0); [lia|]. cbn [length]. do 2 f_equal. lia.
  - exact C0.
Qed.

(** *** Step 4 *)
Lemma after2 : forall i x y, In (Some y) (skipn i T2) -> In x U2 -> lt2 y x -> In (Some x) (skipn i T2).
Proof.
  intros i x y Y X L. rewrite <- somes_T2, <- (firstn_skipn i T2), somes_app in X. apply in_app_or in X. destruct X as [X|X]; [exfalso|apply in_somes; exact X].
  assert (H := HU2). rewrite <- somes_T2, <- (firstn_skipn i T2), somes_app in H. apply ss_app_inv in H. destruct H as (_ & _ & H). apply (asym2 y x L). apply H; auto. apply in_somes. exact Y.
Qed.
Lemma in_skipn_S : forall i x, i < n -> In x (skipn i T2) <-> x = nth i T2 None \/ In x (skipn (S i) T2).
Proof. intros i x H. rewrite (skipn_nth T2 i) by (rewrite T2_len; auto). cbn [In]. intuition congruence. Qed.
Lemma not_after2 : forall i x, i < n -> nth i T2 None = Some x -> ~ In (Some x) (skipn (S i) T2).
Proof.
  intros i x Hi E X. assert (N := nd2). rewrite <- somes_T2, <- (firstn_skipn i T2), somes_app, (skipn_nth T2 i) in N by (rewrite T2_len; auto). rewrite E in N.
  apply NoDup_remove_2 with (l := somes (firstn i T2)) (l' := somes (skipn (S i) T2)) (a := x) in N. apply N. apply in_or_app. right. apply in_somes. exact X.
Qed.
Definition Sq (i c : nat) : list nat := if c =? 0 then [n - 1] else filter (fun p => memo (S p) (skipn i T2)) (FS c).
Lemma FS_inner : forall c p, c <> 0 -> In p (FS c) -> S p < n /\ ch str p = c /\ ty str p = true.
Proof. intros c p Nc P. apply HFS in P. destruct P as (P1 & P2 & P3). split; auto. destruct (Nat.eq_dec (S p) n); [|lia]. exfalso. assert (p = n - 1) by lia. subst p. rewrite (ch_last str maxv HV) in P2. auto. Qed.
Lemma Sq_suffix : forall i c, c < m -> c <> 0 -> FS c = filter (fun p => negb (memo (S p) (skipn i T2))) (FS c) ++ Sq i c.
Proof.
  intros i c C Nc. assert (G : FS c = filter (fun p => negb (memo (S p) (skipn i T2))) (FS c) ++ filter (fun p => negb (negb (memo (S p) (skipn i T2)))) (FS c)).
  { apply ss_filter_split with (lt := lt2). - apply ss_app_inv with (a := FL c). apply ss_c2; auto.
    - intros x y X Y L My. apply negb_true_iff in My. apply negb_true_iff. destruct (memo (S x) (skipn i T2)) eqn:Mx; auto. exfalso. apply memo_spec in Mx.
      apply FS_inner in X, Y; auto. destruct X as (X1 & X2 & X3), Y as (Y1 & Y2 & Y3). assert (Z : In (Some (S y)) (skipn i T2)); [|apply memo_spec in Z; congruence].
      apply (after2 i (S y) (S x)); auto. + apply in_U2. auto. + apply step2; auto. congruence. }
  unfold Sq. destruct (Nat.eqb_spec c 0); [lia|]. rewrite G at 1. f_equal. apply filter_ext. intros p. apply negb_involutive.
Qed.
Lemma Sq_cap : forall i c, c < m -> length (FL c) + length (Sq i c) <= cnt str c.
Proof.
  intros i c C. pose proof (cap2 c C) as K. destruct (Nat.eq_dec c 0) as [->|Nc]. - rewrite FS0 in K. exact K. - rewrite (Sq_suffix i c C Nc), app_length in K. lia.
Qed.
Lemma read2 : forall i, i < n -> nth i (pic str maxv FL (Sq (S i))) None = nth i T2 None.
Proof.
  intros i Hi. rewrite <- (start_m str maxv HV) in Hi. destruct (flat_index _ _ _ Hi) as (c & k & C & K & ->). set (i := start (cnt str) c + k) in *. rewrite (start_m str maxv HV) in Hi.
  assert (R2 : nth i T2 None = nth k (cells str FL FS c) None) by (unfold T2, pic, i; apply (flat_nth (cnt str)); auto; apply (cells_fit str maxv HV), cap2).
  assert (R1 : nth i (pic str maxv FL (Sq (S i))) None = nth k (cells str FL (Sq (S i)) c) None) by (unfold pic; unfold i at 1; apply (flat_nth (cnt str)); auto; apply (cells_fit str maxv HV), Sq_cap).
  rewrite R1. rewrite R2 in *. unfold cells in *. destruct (Nat.eq_dec c 0) as [->|Nc]. { rewrite FS0. reflexivity. }
  pose proof (Sq_suffix (S i) c C Nc) as P. pose proof (cap2 c C) as C1. pose proof (Sq_cap (S i) c C) as C2.
  assert (LE : length (Sq (S i) c) <= length (FS c)) by (rewrite P, app_length; lia).
  destruct (lt_dec k (length (FL c))) as [A|A]. { rewrite !row_nth1 by auto. reflexivity. }
  destruct (lt_dec k (cnt str c - length (FS c))) as [B|B]. { rewrite !row_nth2 by lia. reflexivity. }
  rewrite row_nth3 in R2 by lia. rewrite (row_nth3 (FL c) (FS c)) by lia. set (t := k - (cnt str c - length (FS c))) in *. set (p := nth t (FS c) 0) in *. assert (Pin : In p (FS c)) by (apply nth_In; unfold t; lia).
  assert (SU : In (Some (S p)) (skipn (S i) T2)).
  { destruct (FS_inner c p Nc Pin) as (P1 & P2 & P3). assert (X : In (Some (S p)) (skipn i T2)). { apply after2 with p; auto. - apply in_skipn_S; auto. - apply in_U2. auto. }
    apply in_skipn_S in X; auto. destruct X as [X|X]; auto. rewrite R2 in X. injection X as X. lia. }
  set (rest := filter (fun p => negb (memo (S p) (skipn (S i) T2))) (FS c)) in *.
  destruct (lt_dec t (length rest)) as [D|D].
  - exfalso. assert (Q : In p rest). { replace p with (nth t rest 0); [apply nth_In; auto|]. unfold p. rewrite P. rewrite app_nth1 by auto. reflexivity. }
    unfold rest in Q. apply filter_In in Q. destruct Q as [_ Q]. apply memo_spec in SU. rewrite SU in Q. discriminate.
  - assert (LR : length (FS c) = length rest + length (Sq (S i) c)) by (rewrite P at 1; rewrite app_length; reflexivity).
    rewrite row_nth3 by (unfold t in *; lia). f_equal. unfold p. rewrite P. rewrite app_nth2 by lia. f_equal. unfold t in *. lia.
Qed.
Lemma step_right : forall bs sa i, i < n -> St str maxv true bs sa FL (Sq (S i)) -> exists bs' sa', induce_step str ts true (bs, sa) i = Ok (bs', sa') /\ St str maxv true bs' sa' FL (Sq i).
Proof.
  intros bs sa i Hi SA. assert (LS : length sa = n). { rewrite (st_sa _ _ _ _ _ _ _ SA). apply (pic_length str maxv HV); auto. apply Sq_cap. }
  unfold induce_step. rewrite (lget_nth _ _ i None) by lia. cbn [bind]. assert (Rd : nth i sa None = nth i T2 None) by (rewrite (st_sa _ _ _ _ _ _ _ SA); apply read2; auto). rewrite Rd.
  assert (FS1 : forall x, In x (skipn i T2) <-> x = nth i T2 None \/ In x (skipn (S i) T2)) by (intros; apply in_skipn_S; auto).
  assert (Stay : (forall p, S p < n -> ty str p = true -> nth i T2 None <> Some (S p)) -> St str maxv true bs sa FL (Sq i)).
  { intros H. eapply St_ext; [exact HV|exact SA|auto|]. intros c C. unfold Sq. destruct (Nat.eqb_spec c 0) as [|Nc]; auto. apply filter_ext_in. intros p P. apply FS_inner in P; auto. destruct P as (P1 & P2 & P3). apply bool_iff. rewrite !memo_spec, FS1. split; [|auto].
    intros [X|X]; [|auto]. exfalso. apply (H p); auto. }
  destruct (nth i T2 None) as [[|id]|] eqn:X.
  - exists bs, sa. split; [reflexivity|]. apply Stay. congruence.
  - assert (Hx : In (S id) U2). { rewrite <- somes_T2. apply in_somes. rewrite <- X. apply nth_In. rewrite T2_len. auto. }
    apply in_U2 in Hx. rewrite (lget_nth _ _ id true) by (rewrite (ts_len str maxv HV); lia). cbn [bind]. fold (ty str id).
    destruct (ty str id) eqn:TY; cbn [Bool.eqb].
    + rewrite (lget_nth _ _ id 0%N) by lia. cbn [bind]. set (x := nth id str 0%N). assert (Ex : N.to_nat x = ch str id) by reflexivity.
      assert (Cx : ch str id < m) by (apply (ch_lt str maxv HV); lia). assert (Hid : In id (FS (ch str id))) by (apply HFS; split; [lia|auto]).
      assert (Nz : ch str id <> 0). { pose proof (ch_pos str maxv HV id). lia. }
      assert (Nid : ~ In (Some (S id)) (skipn (S i) T2)) by (apply not_after2; auto).
      assert (Enew : Sq i (ch str id) = id :: Sq (S i) (ch str id)).
      { unfold Sq. destruct (Nat.eqb_spec (ch str id) 0) as [|_]; [lia|]. destruct (in_split _ _ Hid) as (l1 & l2 & E). assert (SS := ss_c2 _ Cx). apply ss_app_inv in SS. destruct SS as (_ & SS & _).
        assert (I2 : forall p, In p l2 -> In (Some (S p)) (skipn (S i) T2)).
        { intros p P. assert (Pin : In p (FS (ch str id))) by (rewrite E; apply in_or_app; right; right; auto). apply FS_inner in Pin; auto. destruct Pin as (P1 & P2 & P3).
          rewrite E in SS. apply ss_app_inv in SS. destruct SS as (_ & SS & _). inversion SS; subst. assert (L := proj1 (Forall_forall _ _) H2 p P).
          assert (Y : In (Some (S p)) (skipn i T2)). { apply after2 with (S id). - apply FS1. left. auto. - apply in_U2. auto. - apply step2; auto. }
          apply FS1 in Y. destruct Y as [Y|Y]; auto. injection Y as ->. exfalso. exact (asym2 _ _ L L). }
        assert (I1 : forall p, In p l1 -> ~ In (Some (S p)) (skipn i T2)).
        { intros p P Y. assert (Pin : In p (FS (ch str id))) by (rewrite E; apply in_or_app; left; auto). apply FS_inner in Pin; auto. destruct Pin as (P1 & P2 & P3).
          rewrite E in SS. apply ss_app_inv in SS. destruct SS as (_ & _ & SS). assert (L := SS p id P (or_introl eq_refl)).
          assert (L' : lt2 (S p) (S id)) by (apply step2; auto). apply FS1 in Y. destruct Y as [Y|Y].
          - injection Y as ->. exact (asym2 _ _ L' L').
          - apply Nid. apply after2 with (S p); auto. apply in_U2. auto. }
        rewrite E, !filter_app. cbn [filter].
        assert (NM : forall p j, ~ In (Some p) (skipn j T2) -> memo p (skipn j T2) = false) by (intros p j Q; destruct (memo p (skipn j T2)) eqn:Q'; auto; apply memo_spec in Q'; contradiction).
        assert (M1 : memo (S id) (skipn (S i) T2) = false) by (apply NM; auto).
        assert (M2 : memo (S id) (skipn i T2) = true) by (apply memo_spec, FS1; left; auto). rewrite M1, M2.
        assert (A1 : forall f, (forall p, In p l1 -> f p = false) -> filter f l1 = []). { clear. induction l1 as [|y l IH]; intros f H; [reflexivity|]. cbn [filter]. rewrite H by (left; auto). apply IH. intros; apply H; right; auto. }
        assert (A2 : forall f, (forall p, In p l2 -> f p = true) -> filter f l2 = l2). { clear. induction l2 as [|y l IH]; intros f H; [reflexivity|]. cbn [filter]. rewrite H by (left; auto). f_equal. apply IH. intros; apply H; right; auto. }
        rewrite !A1, !A2; [reflexivity| | | |]; intros p P.
        - apply memo_spec. auto.
        - apply memo_spec, FS1. right. auto.
        - apply NM. intros Y. apply (I1 p P). apply FS1. auto.
        - apply NM. auto. }
      assert (Eold : forall c, c < m -> c <> ch str id -> Sq i c = Sq (S i) c).
      { intros c C Nc. unfold Sq. destruct (Nat.eqb_spec c 0) as [|Nz']; auto. apply filter_ext_in. intros p P. apply FS_inner in P; auto. destruct P as (P1 & P2 & P3). apply bool_iff. rewrite !memo_spec, FS1. split; [|auto]. intros [Y|Y]; auto. injection Y as ->. congruence. }
      destruct (put_right str maxv HV true bs sa _ _ x id SA) as (bs' & sa' & pos & EP & S' & _ & _).
      { rewrite Ex. auto. } { rewrite Ex. auto. } { rewrite Ex. pose proof (Sq_cap i _ Cx) as CC. rewrite Enew in CC. cbn [length] in CC. lia. }
      rewrite EP. cbn [bind]. exists bs', sa'. split; [reflexivity|]. eapply St_ext; [exact HV|exact S'|auto|]. intros c C. unfold putf. rewrite Ex. destruct (Nat.eqb_spec c (ch str id)) as [->|Nc]; auto.
    + exists bs, sa. split; [reflexivity|]. apply Stay. intros p P1 P2 E. injection E as <-. congruence.
  - exists bs, sa. split; [reflexivity|]. apply Stay. congruence.
Qed.
Lemma right_phase : forall bs sa, St str maxv true bs sa FL S0 -> exists bs' sa', foldM (induce_step str ts true) (rev (seq 0 n)) (bs, sa) = Ok (bs', sa') /\ St str maxv true bs' sa' FL FS.
Proof.
  intros bs sa SA. assert (G : forall k, k <= n -> exists bs' sa', foldM (induce_step str ts true) (rev (seq (n - k) k)) (bs, sa) = Ok (bs', sa') /\ St str maxv true bs' sa' FL (Sq (n - k))).
  { induction k as [|k IH]; intros Hk.
    - exists bs, sa. split; [reflexivity|]. eapply St_ext; [exact HV|exact SA|auto|]. intros c C. rewrite Nat.sub_0_r. unfold Sq, S0. destruct (c =? 0); auto. rewrite skipn_all2 by (rewrite T2_len; auto). cbn [memo existsb]. induction (FS c); auto.
    - destruct IH as (bs1 & sa1 & E & S1); [lia|]. replace (n - k) with (S (n - S k)) in S1 by lia. destruct (step_right bs1 sa1 (n - S k) ltac:(lia) S1) as (bs2 & sa2 & E2 & S2). exists bs2, sa2. split; auto.
      cbn [seq rev]. rewrite foldM_app. replace (S (n - S k)) with (n - k) by lia. rewrite E. cbn [bind foldM]. rewrite E2. reflexivity. }
  destruct (G n (le_n n)) as (bs' & sa' & E & S1). rewrite Nat.sub_diag in *. exists bs', sa'. split; auto. eapply St_ext; [exact HV|exact S1|auto|]. intros c C. unfold Sq. destruct (Nat.eqb_spec c 0) as [->|Nc]; [apply FS0|].
  cbn [skipn]. symmetry. assert (A : forall p, In p (FS c) -> memo (S p) T2 = true). { intros p P. apply FS_inner in P; auto. destruct P as (P1 & P2 & P3). apply memo_spec. apply in_somes. rewrite somes_T2. apply in_U2. auto. }
  induction (FS c) as [|y l IH]; [reflexivity|]. cbn [filter]. rewrite A by (left; auto). f_equal. apply IH. intros; apply A; right; auto.
Qed.
Lemma T2_full : T2 = map Some U2.
Proof.
  unfold T2, U2, pic, flat. rewrite concat_map, map_map. f_equal. apply map_ext_in. intros c C. apply in_seq in C. unfold cells, row. rewrite map_app.
  assert (K : cnt str c <= length (FL c ++ FS c)). { unfold cnt. apply NoDup_incl_length; [apply NoDup_filter, seq_NoDup|]. intros p P. apply filter_In in P. destruct P as [P1 P2]. apply in_seq in P1. apply Nat.eqb_eq in P2.
    apply in_or_app. destruct (ty str p) eqn:T; [right; apply HFS|left; apply HFL]; split; auto; lia. }
  rewrite app_length in K. replace (cnt str c - length (FL c) - length (FS c)) with 0 by lia. reflexivity.
Qed.
Theorem induce_ok : forall order, NoDup order -> (forall i, In i order <-> i < length lms) -> (forall c, c < m -> SL c = filter (fun p => ch str p =? c) (map (fun i => nth i lms 0) (rev order))) ->
  induce maxv str ts lms order = Ok (map Some U2).
Proof.
  intros order ND IO ES. unfold induce. destruct (buckets_ok str maxv HV) as (bs0 & E0 & B1 & B2). rewrite E0. cbn [bind].
  destruct ((lms_phase str maxv HV) bs0 B1 B2 order ND) as (bs1 & sa1 & poses & E1 & S1 & LP & PP). { intros i I. apply IO. exact I. } rewrite E1. cbn [bind].
  assert (S1' : St str maxv false bs1 sa1 (fun _ => []) SL). { eapply St_ext; [exact HV|exact S1|auto|]. exact ES. }
  destruct (left_phase bs1 sa1 S1') as (bs2 & sa2 & E2 & S2 & K2). rewrite E2. cbn [bind].
  destruct (clear_phase bs2 sa2 poses S2 LP) as (sa3 & E3 & S3). { intros i Hi. apply K2, PP, IO, Hi. } rewrite E3. cbn [bind].
  destruct (right_phase _ _ S3) as (bs4 & sa4 & E4 & S4). rewrite E4. cbn [bind snd]. rewrite (st_sa _ _ _ _ _ _ _ S4). change (pic str maxv FL FS) with T2. rewrite T2_full. reflexivity.
Qed.
End Induce.
