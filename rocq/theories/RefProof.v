(** Proofs for RefModel.v (C132). *)
From Coq Require Import List NArith ZArith Arith Bool Lia.
From Verif Require Import Base Spec Spec29 BitUtilModel BitUtilProof FitVectorModel BitVectorModel BitVectorProof BitVectorProof2 FitVectorProof RefModel.
Import ListNotations.
Local Open Scope nat_scope.

Lemma same_name_eq : forall m n, same_name m n = true <-> m = n.
Proof.
  intros [a i] [b j]. unfold same_name. cbn [fst snd]. rewrite andb_true_iff, !Nat.eqb_eq. split; [intros [-> ->]; auto|intro E; injection E; auto].
Qed.
Lemma assigned_eq : forall A (st : name -> option A) n x, assigned st n x n = Some x.
Proof. intros. unfold assigned. rewrite (proj2 (same_name_eq n n) eq_refl). reflexivity. Qed.
Lemma assigned_some : forall A (st : name -> option A) n x m, st m <> None -> assigned st n x m <> None.
Proof. intros. unfold assigned. destruct (same_name m n); [discriminate|auto]. Qed.

Lemma Forall2_len : forall A B (P : A -> B -> Prop) l m, Forall2 P l m -> length l = length m.
Proof. intros A B P l m F. induction F; simpl; auto. Qed.

Definition is_addr {A} (o : ref_op A) : Prop := match o with RAddr _ => True | _ => False end.

Section Sim.
Context {V R A : Type}.
Variables (take : V -> nat -> nat -> res R) (addr : R -> res R) (read : V -> R -> res A) (write : V -> R -> A -> res V).
Variable fits : nat -> A -> bool.
Variable I : V -> (name -> option A) -> Prop.
Variable rok : R -> name -> Prop.
Hypothesis Hext : forall v st st', (forall n, st n = st' n) -> I v st -> I v st'.
Hypothesis Htake : forall v st a i, I v st -> st (a, i) <> None -> exists r, take v a i = Ok r /\ rok r (a, i).
Hypothesis Hread : forall v st r n x, I v st -> rok r n -> st n = Some x -> read v r = Ok x.
Hypothesis Hwrite : forall v st r n x, I v st -> rok r n -> st n <> None -> fits (fst n) x = true -> exists v', write v r x = Ok v' /\ I v' (assigned st n x).
Hypothesis Hfits : forall v st n x, I v st -> st n = Some x -> fits (fst n) x = true.
Variable addr_ok : bool.
Hypothesis Haddr : addr_ok = true -> forall r n, rok r n -> exists r', addr r = Ok r' /\ rok r' n.

Definition sim (s : V * list R) (t : (name -> option A) * list name) : Prop :=
  I (fst s) (fst t) /\ Forall2 (fun r n => rok r n /\ fst t n <> None) (snd s) (snd t).

Lemma Forall2_lget : forall rs (ns : list name) (P : R -> name -> Prop) k n, Forall2 P rs ns -> nth_error ns k = Some n ->
  exists r, lget rs k = Ok r /\ P r n.
Proof.
  intros rs ns P k n F. revert k. induction F; intros [|k] E; try discriminate.
  - injection E as <-. exists x. split; auto.
  - destruct (IHF k E) as (r & G & Q). exists r. split; auto.
Qed.

Lemma sim_keep : forall rs ns (st st' : name -> option A), (forall m, st m <> None -> st' m <> None) ->
  Forall2 (fun (r : R) n => rok r n /\ st n <> None) rs ns -> Forall2 (fun r n => rok r n /\ st' n <> None) rs ns.
Proof. intros rs ns st st' H F. induction F; constructor; auto. destruct H0. auto. Qed.

Lemma ref_step_sim : forall o s t t', (is_addr o -> addr_ok = true) -> sim s t -> refs_step fits t o = Some t' ->
  exists s', ref_step take addr read write s o = Ok s' /\ sim s' t'.
Proof.
  intros o [v rs] [st ns] t' Ho [Hi F] E. cbn [fst snd] in *. destruct o; cbn [refs_step ref_step] in *.
  - destruct (st (a, i)) eqn:X; [|discriminate]. injection E as <-. destruct (Htake v st a i Hi) as (r & T & Q); [congruence|].
    rewrite T. eexists. split; [reflexivity|]. split; [exact Hi|]. apply Forall2_app; auto. constructor; [|constructor]. split; auto. cbn [fst]. congruence.
  - destruct (nth_error ns k) eqn:X; [|discriminate]. injection E as <-. destruct (Forall2_lget _ _ _ k n F X) as (r & T & Q1 & Q2).
    rewrite T. eexists. split; [reflexivity|]. split; [exact Hi|]. apply Forall2_app; auto.
  - destruct (nth_error ns k) eqn:X; [|discriminate]. injection E as <-. destruct (Forall2_lget _ _ _ k n F X) as (r & T & Q1 & Q2).
    rewrite T. cbn [bind]. destruct (Haddr (Ho Logic.I) r n Q1) as (r' & T' & Q').
    rewrite T'. eexists. split; [reflexivity|]. split; [exact Hi|]. apply Forall2_app; auto.
  - destruct (nth_error ns k) eqn:X; [|discriminate]. destruct (fits (fst n) x) eqn:Y; [|discriminate]. injection E as <-.
    destruct (Forall2_lget _ _ _ k n F X) as (r & T & Q1 & Q2). rewrite T. cbn [bind].
    destruct (Hwrite v st r n x Hi Q1 Q2 Y) as (v' & W & Hi'). rewrite W. eexists. split; [reflexivity|]. split; [exact Hi'|].
    cbn [fst snd]. revert F. apply sim_keep. intros. now apply assigned_some.
  - destruct (nth_error ns k) eqn:X; [|discriminate]. destruct (nth_error ns l) eqn:X'; [|discriminate].
    destruct (st n0) eqn:Z; [|discriminate]. destruct (fits (fst n) a) eqn:Y; [|discriminate]. injection E as <-.
    destruct (Forall2_lget _ _ _ k n F X) as (r & T & Q1 & Q2). rewrite T. cbn [bind].
    destruct (Forall2_lget _ _ _ l n0 F X') as (q & T' & Q1' & Q2'). rewrite T'. cbn [bind].
    rewrite (Hread v st q n0 a Hi Q1' Z). cbn [bind].
    destruct (Hwrite v st r n a Hi Q1 Q2 Y) as (v' & W & Hi'). rewrite W. eexists. split; [reflexivity|]. split; [exact Hi'|].
    cbn [fst snd]. revert F. apply sim_keep. intros. now apply assigned_some.
  - destruct (nth_error ns k) eqn:X; [|discriminate]. destruct (nth_error ns l) eqn:X'; [|discriminate].
    destruct (st n0) eqn:Z; [|discriminate]. destruct (fits (fst n) a) eqn:Y; [|discriminate]. injection E as <-.
    destruct (Forall2_lget _ _ _ k n F X) as (r & T & Q1 & Q2). rewrite T. cbn [bind].
    destruct (Forall2_lget _ _ _ l n0 F X') as (q & T' & Q1' & Q2'). rewrite T'. cbn [bind]. cbv zeta.
    rewrite (Hread v st q n0 a Hi Q1' Z). cbn [bind].
    destruct (Hwrite v st r n a Hi Q1 Q2 Y) as (v' & W & Hi'). rewrite W. cbn [bind].
    rewrite (Hread v' _ r n a Hi' Q1 (assigned_eq _ _ _ _)). cbn [bind].
    destruct (Hwrite v' _ q n0 a Hi' Q1') as (v'' & W' & Hi''); [now apply assigned_some|apply (Hfits v st); auto|].
    rewrite W'. eexists. split; [reflexivity|]. split; cbn [fst snd].
    + revert Hi''. apply Hext. intro m. unfold assigned. destruct (same_name m n0) eqn:E0; [|reflexivity].
      apply same_name_eq in E0. subst m. destruct (same_name n0 n); auto.
    + revert F. apply sim_keep. intros. now apply assigned_some.
Qed.

Lemma ref_run_sim : forall os s t t', (forall o, In o os -> is_addr o -> addr_ok = true) -> sim s t -> refs_run fits t os = Some t' ->
  exists s', ref_run take addr read write s os = Ok s' /\ sim s' t'.
Proof.
  induction os; intros s t t' Ho S E; cbn [refs_run] in E.
  - injection E as <-. exists s. split; auto.
  - destruct (refs_step fits t a) as [t1|] eqn:X; [|discriminate].
    destruct (ref_step_sim a s t t1 (Ho a (or_introl eq_refl)) S X) as (s1 & Y & S1).
    destruct (IHos s1 t1 t') as (s' & Z & S'); auto. { intros. apply (Ho o); simpl; auto. }
    exists s'. split; auto. unfold ref_run in *. cbn [foldM]. rewrite Y. exact Z.
Qed.
End Sim.

(** ** FitVector *)
Definition fit_shape (v : fitvec) : Prop :=
  1 <= fv_width v <= 63 /\ length (fv_words v) = fv_word_size (fv_size v) (fv_width v) /\ small (fv_words v).

(** the contents of the vectors *)
Definition fit_has (vs : list fitvec) (st : name -> option N) : Prop :=
  forall a i x, st (a, i) = Some x <-> exists v, nth_error vs a = Some v /\ i < fv_size v /\ fv_get v i = Ok x.

Definition fit_width (vs : list fitvec) (a : nat) : nat := match nth_error vs a with Some v => fv_width v | None => 0 end.

Definition fit_inv (ds : list (nat * nat)) (vs : list fitvec) (st : name -> option N) : Prop :=
  map (fun v => (fv_width v, fv_size v)) vs = ds /\ Forall fit_shape vs /\ fit_has vs st.

Definition fit_rok (ds : list (nat * nat)) (r : pref) (n : name) : Prop :=
  exists d, nth_error ds (fst n) = Some d /\ r = PRef (fst n) (snd n * fst d / 64) (snd n * fst d mod 64) (fst d).

Lemma fit_shape_get : forall v i, fit_shape v -> i < fv_size v -> exists x, fv_get v i = Ok x /\ (x < 2 ^ N.of_nat (fv_width v))%N.
Proof.
  intros v i (Hw & Hl & Hs) Hi. unfold fv_get. pose proof (fv_word_size_ge (fv_size v) (fv_width v)). pose proof (field_in i _ (fv_width v) Hi).
  destruct (bits_read_spec (fv_words v) (i * fv_width v) (fv_width v)) as (x & E & Hx & _); auto; [lia|]. eauto.
Qed.

Definition fit_fits (ds : list (nat * nat)) (a : nat) (x : N) : bool :=
  match nth_error ds a with Some d => (x <? 2 ^ N.of_nat (fst d))%N | None => false end.

Lemma lget_nth_error : forall A (l : list A) i x, nth_error l i = Some x -> lget l i = Ok x.
Proof. intros. unfold lget. rewrite H. reflexivity. Qed.
Lemma ds_nth : forall vs ds a v, map (fun v => (fv_width v, fv_size v)) vs = ds -> nth_error vs a = Some v -> nth_error ds a = Some (fv_width v, fv_size v).
Proof. intros. subst ds. apply (map_nth_error (fun v => (fv_width v, fv_size v))). exact H0. Qed.
Lemma nth_ds : forall vs ds a d, map (fun v => (fv_width v, fv_size v)) vs = ds -> nth_error ds a = Some d -> exists v, nth_error vs a = Some v /\ d = (fv_width v, fv_size v).
Proof.
  intros. subst ds. rewrite nth_error_map in H0. destruct (nth_error vs a) eqn:E; [|discriminate]. cbn in H0. injection H0 as <-. eauto.
Qed.

Lemma some_none : forall A (o : option A), o <> None -> exists x, o = Some x.
Proof. intros A [x|] H; [eauto|congruence]. Qed.

Lemma fit_refs_run : forall os vs st t, Forall fit_shape vs -> fit_has vs st -> (forall o, In o os -> ~ is_addr o) ->
  refs_run (fun a x => (x <? 2 ^ N.of_nat (fit_width vs a))%N) (st, []) os = Some t ->
  exists vs' rs, fit_refs (vs, []) os = Ok (vs', rs) /\ map (fun v => (fv_width v, fv_size v)) vs' = map (fun v => (fv_width v, fv_size v)) vs /\
    fit_has vs' (fst t) /\ length rs = length (snd t) /\
    forall k n, nth_error (snd t) k = Some n -> exists r x, nth_error rs k = Some r /\ fst t n = Some x /\ pr_read vs' r = Ok x.
Proof.
  intros os vs st t Hs Hh Ho E. set (ds := map (fun v => (fv_width v, fv_size v)) vs).
  assert (P1 : forall v st r n x, fit_inv ds v st -> fit_rok ds r n -> st n = Some x -> pr_read v r = Ok x).
  { intros v0 st0 r [a i] x (D & S & H) (d & Hd & ->) Hx. cbn [fst snd] in *. destruct (nth_ds _ _ _ _ D Hd) as (w & W & ->). cbn [fst snd].
    unfold pr_read. cbn [p_vec p_seg p_off p_w]. rewrite (lget_nth_error _ _ _ _ W). cbn [bind].
    apply H in Hx. destruct Hx as (v1 & X & _ & G). rewrite W in X. injection X as <-. exact G. }
  destruct (ref_run_sim pr_take pr_addr pr_read pr_write (fun a x => (x <? 2 ^ N.of_nat (fit_width vs a))%N) (fit_inv ds) (fit_rok ds)) with (addr_ok := false) (os := os) (s := (vs, @nil pref)) (t := (st, @nil name)) (t' := t)
    as ([vs' rs] & R & S); auto.
  - intros v0 st0 st0' X (D & S & H). split; [exact D|]. split; [exact S|]. intros a i x. rewrite <- X. apply H.
  - intros v0 st0 a i (D & S & H) Hn. apply some_none in Hn. destruct Hn as [x Hx]. apply H in Hx. destruct Hx as (v1 & W & Hi & G).
    unfold pr_take. rewrite (lget_nth_error _ _ _ _ W). cbn [bind]. eexists. split; [reflexivity|]. eexists. split; [apply (ds_nth _ _ _ _ D W)|]. reflexivity.
  - intros v0 st0 r [a i] x (D & S & H) (d & Hd & ->) Hn Hf. cbn [fst snd] in *. destruct (nth_ds _ _ _ _ D Hd) as (w & W & ->). cbn [fst snd].
    unfold pr_write. cbn [p_vec p_seg p_off p_w]. rewrite (lget_nth_error _ _ _ _ W). cbn [bind].
    apply some_none in Hn. destruct Hn as [y Hy]. apply H in Hy. destruct Hy as (v1 & X & Hi & G). rewrite W in X. injection X as <-.
    assert (Sw : fit_shape w) by (apply (proj1 (Forall_forall _ _) S); eapply nth_error_In; eauto).
    destruct Sw as (Hw & Hl & Hsm).
    assert (Ew : fit_width vs a = fv_width w).
    { unfold fit_width. destruct (nth_ds vs ds a _ eq_refl Hd) as (w' & W' & Q). rewrite W'. congruence. }
    rewrite Ew in Hf. apply N.ltb_lt in Hf.
    destruct (fv_write_independent (fv_width w) (fv_size w) (fv_words w) i x Hw Hl Hsm Hi Hf) as (v' & Q & Z & L & G1 & G2).
    unfold fv_set in Q. cbn [fv_width fv_size fv_words] in Q. destruct (bits_write _ _ _ _ _) as [ws| | |] eqn:B; try discriminate. cbn [bind] in Q.
    injection Q as Q. subst v'. cbn [bind fv_words fv_size] in *.
    pose proof (fv_word_size_ge (fv_size w) (fv_width w)) as GE. pose proof (field_in i _ (fv_width w) Hi) as FI.
    destruct (bits_write_spec (fv_words w) (i * fv_width w) (fv_width w) x) as (ws' & B' & L' & S' & _); auto; [lia|].
    rewrite B in B'. injection B' as <-.
    assert (La : a < length v0) by (apply nth_error_Some; congruence).
    rewrite lset_Ok by exact La. eexists. split; [reflexivity|]. split; [|split].
    + rewrite <- D. apply nth_ext with (d := (0, 0)) (d' := (0, 0)); [rewrite !map_length, upd_length; reflexivity|].
      intros k Hk. rewrite map_length, upd_length in Hk.
      rewrite (nth_indep _ _ ((fun v => (fv_width v, fv_size v)) w)) by (rewrite map_length, upd_length; auto). rewrite (map_nth (fun v => (fv_width v, fv_size v))).
      rewrite (nth_indep _ (0, 0) ((fun v => (fv_width v, fv_size v)) w)) by (rewrite map_length; auto). rewrite (map_nth (fun v => (fv_width v, fv_size v))).
      rewrite nth_upd. destruct (Nat.eqb_spec k a); cbn [andb]; [|reflexivity]. destruct (Nat.ltb_spec a (length v0)); [|lia].
      subst k. cbn [fv_width fv_size]. rewrite (nth_error_nth _ _ w W). reflexivity.
    + apply Forall_forall. intros v1 In1. apply In_nth_error in In1. destruct In1 as [k K]. rewrite nth_error_upd in K.
      destruct ((k =? a) && (a <? length v0)); [injection K as <-; repeat split; cbn [fv_width fv_size fv_words]; auto; try lia; congruence|].
      apply (proj1 (Forall_forall _ _) S). eapply nth_error_In; eauto.
    + intros c j z0. unfold assigned, same_name. cbn [fst snd]. rewrite nth_error_upd.
      destruct (Nat.eqb_spec c a); cbn [andb].
      * subst c. rewrite (proj2 (Nat.ltb_lt _ _) La). destruct (Nat.eqb_spec j i).
        -- subst j. split.
           ++ intro Q. injection Q as <-. eexists. split; [reflexivity|]. split; [exact Hi|]. exact G1.
           ++ intros (v1 & Q & _ & Q'). injection Q as <-. rewrite G1 in Q'. congruence.
        -- split; [intro Q0; apply H in Q0; revert Q0|intro Q0; apply H; revert Q0].
           ++ intros (v1 & Q & Q1 & Q2). rewrite W in Q. injection Q as <-. eexists. split; [reflexivity|]. split; [exact Q1|].
              destruct (G2 j Q1 n) as (z & Z1 & Z2). destruct w as [wa wb wc]; cbn [fv_width fv_size fv_words] in *. congruence.
           ++ intros (v1 & Q & Q1 & Q2). injection Q as <-. cbn [fv_size] in Q1. exists w. split; [exact W|]. split; [exact Q1|].
              destruct (G2 j Q1 n) as (z & Z1 & Z2). destruct w as [wa wb wc]; cbn [fv_width fv_size fv_words] in *. congruence.
      * apply H.
  - intros v0 st0 [a i] x (D & S & H) Hx. apply H in Hx. destruct Hx as (w & W & Hi & G). cbn [fst].
    destruct (fit_shape_get w i) as (y & Y & B); auto. { apply (proj1 (Forall_forall _ _) S); eapply nth_error_In; eauto. }
    rewrite Y in G. injection G as <-. apply N.ltb_lt.
    assert (Ew : fit_width vs a = fv_width w).
    { unfold fit_width. pose proof (ds_nth _ _ _ _ D W) as Hd. destruct (nth_ds vs ds a _ eq_refl Hd) as (w' & W' & Q). rewrite W'. congruence. }
    rewrite Ew. exact B.
  - discriminate.
  - intros o Hin Ha. exfalso. exact (Ho o Hin Ha).
  - split; [|constructor]. cbn [fst]. split; [reflexivity|]. split; auto.
  - destruct S as [(D & S & H) F]. cbn [fst snd] in *. exists vs', rs. split; [exact R|]. split; [exact D|]. split; [exact H|].
    split; [eapply Forall2_len; eauto|].
    intros k n Hk. destruct (Forall2_lget _ _ _ k n F Hk) as (r & G & Q1 & Q2). apply some_none in Q2. destruct Q2 as [x Hx].
    exists r, x. split; [|split; [exact Hx|]].
    + unfold lget in G. destruct (nth_error rs k); congruence.
    + apply (P1 vs' (fst t) r n x); auto. split; [exact D|]. split; auto.
Qed.

(** ** BitVector *)
Definition bit_shape (v : bitvec) : Prop := length (bv_words v) = get_word_size (bv_size v) /\ small (bv_words v).
Definition bit_has (vs : list bitvec) (st : name -> option bool) : Prop :=
  forall a i x, st (a, i) = Some x <-> exists v, nth_error vs a = Some v /\ i < bv_size v /\ bv_get v i = Ok x.
Definition bit_inv (ds : list nat) (vs : list bitvec) (st : name -> option bool) : Prop :=
  map bv_size vs = ds /\ Forall bit_shape vs /\ bit_has vs st.
Definition bit_rok (r : qref) (n : name) : Prop := exists b, make_ref (snd n) = Ok b /\ r = QRef (fst n) b.

Lemma bit_refs_run : forall os vs st t, Forall bit_shape vs -> bit_has vs st ->
  refs_run (fun _ _ => true) (st, []) os = Some t ->
  exists vs' rs, bit_refs (vs, []) os = Ok (vs', rs) /\ map bv_size vs' = map bv_size vs /\
    bit_has vs' (fst t) /\ length rs = length (snd t) /\
    forall k n, nth_error (snd t) k = Some n -> exists r x, nth_error rs k = Some r /\ fst t n = Some x /\ qr_read vs' r = Ok x.
Proof.
  intros os vs st t Hs Hh E. set (ds := map bv_size vs).
  assert (P1 : forall v st r n x, bit_inv ds v st -> bit_rok r n -> st n = Some x -> qr_read v r = Ok x).
  { intros v0 st0 r [a i] x (D & S & H) (b & Hb & ->) Hx. cbn [fst snd] in *. apply H in Hx. destruct Hx as (w & W & _ & G).
    unfold qr_read. cbn [q_vec q_ref]. rewrite (lget_nth_error _ _ _ _ W). cbn [bind]. unfold bv_get in G. rewrite Hb in G. exact G. }
  destruct (ref_run_sim qr_take qr_addr qr_read qr_write (fun _ _ => true) (bit_inv ds) bit_rok) with (addr_ok := true) (os := os) (s := (vs, @nil qref)) (t := (st, @nil name)) (t' := t)
    as ([vs' rs] & R & S); auto.
  - intros v0 st0 st0' X (D & S & H). split; [exact D|]. split; [exact S|]. intros a i x. rewrite <- X. apply H.
  - intros v0 st0 a i (D & S & H) Hn. apply some_none in Hn. destruct Hn as [x Hx]. apply H in Hx. destruct Hx as (v1 & W & Hi & G).
    unfold qr_take. rewrite (lget_nth_error _ _ _ _ W). cbn [bind]. pose proof (make_ref_Ok i) as M. rewrite M. cbn [bind]. eexists. split; [reflexivity|].
    eexists. split; [exact M|]. reflexivity.
  - intros v0 st0 r [a i] x (D & S & H) (b & Hb & ->) Hn _. cbn [fst snd] in *.
    apply some_none in Hn. destruct Hn as [y Hy]. apply H in Hy. destruct Hy as (w & W & Hi & G).
    unfold qr_write. cbn [q_vec q_ref]. rewrite (lget_nth_error _ _ _ _ W). cbn [bind].
    assert (Sw : bit_shape w) by (apply (proj1 (Forall_forall _ _) S); eapply nth_error_In; eauto).
    destruct Sw as (Hl & Hsm). pose proof (gws_ge (bv_size w)) as GE.
    rewrite make_ref_Ok in Hb. apply (f_equal (fun r => match r with Ok z => z | _ => b end)) in Hb. cbv beta iota in Hb. rewrite <- Hb.
    destruct (ref_set_spec (bv_words w) i x) as (ws & B & L & S' & Bt); auto; [lia|]. rewrite B. cbn [bind].
    assert (La : a < length v0) by (apply nth_error_Some; congruence).
    rewrite lset_Ok by exact La. eexists. split; [reflexivity|]. split; [|split].
    + rewrite <- D. apply nth_ext with (d := 0) (d' := 0); [rewrite !map_length, upd_length; reflexivity|].
      intros k Hk. rewrite map_length, upd_length in Hk.
      rewrite (nth_indep _ _ (bv_size w)) by (rewrite map_length, upd_length; auto). rewrite map_nth.
      rewrite (nth_indep _ 0 (bv_size w)) by (rewrite map_length; auto). rewrite map_nth.
      rewrite nth_upd. destruct (Nat.eqb_spec k a); cbn [andb]; [|reflexivity]. destruct (Nat.ltb_spec a (length v0)); [|lia].
      subst k. cbn [bv_size]. rewrite (nth_error_nth _ _ w W). reflexivity.
    + apply Forall_forall. intros v1 In1. apply In_nth_error in In1. destruct In1 as [k K]. rewrite nth_error_upd in K.
      destruct ((k =? a) && (a <? length v0)); [injection K as <-; split; cbn [bv_size bv_words]; auto; congruence|].
      apply (proj1 (Forall_forall _ _) S). eapply nth_error_In; eauto.
    + assert (GG : forall sz ws' j, j < 64 * length ws' -> bv_get (BV sz ws') j = Ok (bitat ws' j)).
      { intros. unfold bv_get. rewrite make_ref_Ok. cbn [bind bv_words]. now apply ref_get_spec. }
      intros c j z0. unfold assigned, same_name. cbn [fst snd]. rewrite nth_error_upd.
      destruct (Nat.eqb_spec c a); cbn [andb].
      * subst c. rewrite (proj2 (Nat.ltb_lt _ _) La).
        assert (K1 : j < bv_size w -> bv_get (BV (bv_size w) ws) j = Ok (if j =? i then x else bitat (bv_words w) j)).
        { intro. rewrite GG by lia. now rewrite Bt. }
        assert (K2 : j < bv_size w -> bv_get w j = Ok (bitat (bv_words w) j)).
        { intro. destruct w as [wa wb]. cbn [bv_words bv_size] in *. apply GG. lia. }
        destruct (Nat.eqb_spec j i).
        -- subst j. split.
           ++ intro Q. injection Q as <-. eexists. split; [reflexivity|]. split; [exact Hi|]. rewrite K1 by exact Hi. reflexivity.
           ++ intros (v1 & Q & Q0 & Q'). injection Q as <-. rewrite K1 in Q' by exact Hi. congruence.
        -- split; [intro Q0; apply H in Q0; revert Q0|intro Q0; apply H; revert Q0].
           ++ intros (v1 & Q & Q1 & Q2). rewrite W in Q. injection Q as <-. eexists. split; [reflexivity|]. split; [exact Q1|].
              rewrite K1 by exact Q1. now rewrite K2 in Q2 by exact Q1.
           ++ intros (v1 & Q & Q1 & Q2). injection Q as <-. cbn [bv_size] in Q1. exists w. split; [exact W|]. split; [exact Q1|].
              rewrite K1 in Q2 by exact Q1. now rewrite K2 by exact Q1.
      * apply H.
  - intros _ r n (b & Hb & ->). unfold qr_addr. cbn [q_ref q_vec]. rewrite (ref_addr_make _ _ Hb), iter_deref_make. cbn [bind].
    eexists. split; [reflexivity|]. rewrite make_ref_Ok in Hb. eexists. split; [exact (make_ref_Ok (snd n))|]. reflexivity.
  - split; [|constructor]. cbn [fst]. split; [reflexivity|]. split; auto.
  - destruct S as [(D & S & H) F]. cbn [fst snd] in *. exists vs', rs. split; [exact R|]. split; [exact D|]. split; [exact H|].
    split; [eapply Forall2_len; eauto|].
    intros k n Hk. destruct (Forall2_lget _ _ _ k n F Hk) as (r & G & Q1 & Q2). apply some_none in Q2. destruct Q2 as [x Hx].
    exists r, x. split; [|split; [exact Hx|]].
    + unfold lget in G. destruct (nth_error rs k); congruence.
    + apply (P1 vs' (fst t) r n x); auto. split; [exact D|]. split; auto.
Qed.

Lemma bit_swap_loses : forall a b x y i j, bv_get a i = Ok x -> bv_get b j = Ok y -> i < bv_size a -> j < bv_size b ->
  Forall bit_shape [a; b] ->
  exists a' b' rs, bit_refs ([a; b], []) [RTake 0 i; RTake 1 j; RSwap 0 1] = Ok ([a'; b'], rs) /\ bv_get a' i = Ok y /\ bv_get b' j = Ok y.
Proof.
  intros a b x y i j Ga Gb Hi Hj S.
  set (val := fun v k => match bv_get v k with Ok z => Some z | _ => None end).
  set (st := fun n : name => match nth_error [a; b] (fst n) with Some v => if snd n <? bv_size v then val v (snd n) else None | None => None end).
  assert (Hh : bit_has [a; b] st).
  { intros c k z. unfold st. cbn [fst snd]. destruct (nth_error [a; b] c) as [v|]; [|split; [discriminate|intros (v & Q & _); discriminate]].
    destruct (Nat.ltb_spec k (bv_size v)).
    - unfold val. split; [intro Q; exists v; split; auto; split; auto; destruct (bv_get v k); congruence|].
      intros (v' & Q & _ & Q'). injection Q as <-. rewrite Q'. reflexivity.
    - split; [discriminate|]. intros (v' & Q & Q' & _). injection Q as <-. lia. }
  assert (X0 : st (0, i) = Some x) by (unfold st, val; cbn [fst snd nth_error]; rewrite (proj2 (Nat.ltb_lt _ _) Hi), Ga; reflexivity).
  assert (X1 : st (1, j) = Some y) by (unfold st, val; cbn [fst snd nth_error]; rewrite (proj2 (Nat.ltb_lt _ _) Hj), Gb; reflexivity).
  destruct (bit_refs_run [RTake 0 i; RTake 1 j; RSwap 0 1] [a; b] st (assigned st (0, i) y, [(0, i); (1, j)]) S Hh) as (vs' & rs & R & M & H & _).
  { cbn [refs_run refs_step app nth_error]. rewrite X0. cbn [refs_run refs_step app nth_error]. rewrite X1. cbn [refs_run refs_step app nth_error]. rewrite X1. reflexivity. }
  destruct vs' as [|a' [|b' [|]]]; try discriminate M. exists a', b', rs. split; [exact R|]. split.
  - destruct (proj1 (H 0 i y)) as (v & Q & _ & Q'); [apply assigned_eq|]. cbn in Q. injection Q as <-. exact Q'.
  - destruct (proj1 (H 1 j y)) as (v & Q & _ & Q'); [exact X1|]. cbn in Q. injection Q as <-. exact Q'.
Qed.
