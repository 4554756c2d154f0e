(** The assertions of the construction of Samc: the run with them agrees with the one without until a place is taken twice. *)
From Coq Require Import List NArith ZArith Arith Bool Lia ListDec.
From Verif Require Import Base Spec10 BitUtilModel BitVectorModel BitVectorProof BitVectorProof2 SamcModel SamcPack SamcLevel SamcTree SamcSet SamcSet2 SamcSet3 FoDebugModel SamcDebugModel.
Import ListNotations.
Local Open Scope nat_scope.
Ltac Zify.zify_post_hook ::= idtac.

Definition spots (m : list (nat * N)) : list nat := map fst m.
Lemma map_count_spec : forall m i, map_count m i = true <-> In i (spots m).
Proof. intros m i. unfold map_count, spots. rewrite existsb_exists, in_map_iff. split; intros (w & A & B); exists w; [apply Nat.eqb_eq in B; auto|subst i; rewrite Nat.eqb_refl; auto]. Qed.
Lemma map_get_spec : forall m i c, functional m -> In (i, c) m -> map_get m i = c.
Proof.
  intros m i c F H. unfold map_get. assert (G : forall l r, (forall c', In (i, c') l -> c' = c) -> (r = c \/ exists c', In (i, c') l) -> fold_left (fun r w => if fst w =? i then snd w else r) l r = c).
  { induction l as [|(p & x) l IH]; intros r A [->|(c' & B)]; cbn [fold_left fst snd]; auto; try contradiction.
    - apply IH; [intros; apply A; now right|]. left. destruct (Nat.eqb_spec p i) as [->|]; auto. apply A. now left.
    - destruct (Nat.eqb_spec p i) as [->|NE].
      + rewrite (A x) by now left. apply IH; [intros; apply A; now right|now left].
      + apply IH; [intros; apply A; now right|]. destruct B as [B|B]; [congruence|]. right. eauto. }
  apply G; [intros c' H'; eapply F; eauto|]. right. eauto.
Qed.
Lemma nodup_app_l : forall (A : Type) (a b : list A), NoDup (a ++ b) -> NoDup a.
Proof. intros A a b H. induction a as [|x a IH]; [constructor|]. cbn [app] in H. inversion H as [|? ? N1 N2]; subst. constructor; auto. intros I. apply N1. apply in_or_app. auto. Qed.

(** a step and the step with assertions *)
Definition agrees (f f_d : level -> res level) : Prop := forall st st1, f st = Ok st1 ->
  (exists ext, lv_map st1 = lv_map st ++ ext) /\ (NoDup (spots (lv_map st)) -> (NoDup (spots (lv_map st1)) -> f_d st = Ok st1) /\ (~ NoDup (spots (lv_map st1)) -> f_d st = Throw)).
Lemma nodup_dec : forall l : list nat, NoDup l \/ ~ NoDup l.
Proof. intros l. destruct (ListDec.NoDup_dec Nat.eq_dec l); auto. Qed.
Lemma nodup_ext : forall (m ext : list (nat * N)) m1, m1 = m ++ ext -> NoDup (spots m1) -> NoDup (spots m).
Proof. intros m ext m1 -> H. unfold spots in *. rewrite map_app in H. now apply nodup_app_l in H. Qed.
Lemma agrees_fold : forall (A : Type) (f f_d : level -> A -> res level) l, (forall a, agrees (fun st => f st a) (fun st => f_d st a)) -> agrees (fun st => foldM f l st) (fun st => foldM f_d l st).
Proof.
  intros A f f_d l H. induction l as [|a l IH]; intros st st1 E; cbn [foldM] in *.
  - injection E as <-. split; [exists []; now rewrite app_nil_r|]. intros N0. split; [auto|contradiction].
  - apply bind_Ok_inv in E. destruct E as (st' & E1 & E2). destruct (H a st st' E1) as ((x1 & X1) & G). destruct (IH st' st1 E2) as ((x2 & X2) & G3). split; [exists (x1 ++ x2); now rewrite X2, X1, app_assoc|].
    intros N0. destruct (G N0) as (G1 & G2). destruct (nodup_dec (spots (lv_map st'))) as [D|D].
    + rewrite (G1 D). cbn [bind]. auto.
    + rewrite (G2 D). cbn [bind]. split; auto. intros D1. exfalso. apply D. eapply nodup_ext; eauto.
Qed.
Lemma place_agrees : forall h0 h1 c code e, agrees (fun st => place h0 h1 c code st e) (fun st => place_d h0 h1 c code st e).
Proof.
  intros h0 h1 c code e st st1 E. unfold place_d. set (i := h0 + snd (fst e) + N.to_nat code). assert (M : lv_map st1 = lv_map st ++ [(i, c)]).
  { unfold place in E. apply bind_Ok_inv in E. destruct E as (bv & _ & E). injection E as <-. reflexivity. }
  split; [eauto|]. intros N0. rewrite M. unfold spots at 1 2. rewrite map_app. cbn [map fst]. fold (spots (lv_map st)). destruct (map_count (lv_map st) i) eqn:Q.
  - split; [|auto]. intros H. exfalso. apply map_count_spec in Q. apply NoDup_remove_2 in H. rewrite app_nil_r in H. auto.
  - split; [intros _; cbn [negb assert_that bind]; exact E|]. intros H. exfalso. apply H. apply NoDup_snoc; auto. intros I. apply map_count_spec in I. congruence.
Qed.
Lemma char_agrees : forall legacy h0 h1 F ci, agrees (fun st => char_step legacy h0 h1 F st ci) (fun st => char_step_d legacy h0 h1 F st ci).
Proof.
  intros legacy h0 h1 F ci st st1 E. unfold char_step, char_step_d in *. cbv zeta in *. set (ids := map (fun e : N * nat * list (list N) => snd (fst e)) (filter (fun e : N * nat * list (list N) => (fst (fst e) =? N.of_nat ci)%N) F)) in *. destruct ids as [|i0 ids].
  - injection E as <-. split; [exists []; now rewrite app_nil_r|]. intros N0. split; [auto|contradiction].
  - apply bind_Ok_inv in E. destruct E as (bv & E1 & E). apply bind_Ok_inv in E. destruct E as (y & E2 & E). apply bind_Ok_inv in E. destruct E as (row & E3 & E). rewrite E1. cbn [bind]. rewrite E2. cbn [bind]. rewrite E3. cbn [bind].
    apply (agrees_fold _ _ _ _ (place_agrees h0 h1 (N.of_nat ci) (Z.to_N (Z.of_nat (h1 - h0) + y))) _ _ E).
Qed.
Lemma level_agrees : forall legacy h0 h1 F l, agrees (fun st => foldM (char_step legacy h0 h1 F) l st) (fun st => foldM (char_step_d legacy h0 h1 F) l st).
Proof. intros. apply (agrees_fold _ (char_step legacy h0 h1 F) (char_step_d legacy h0 h1 F)). intros ci. apply char_agrees. Qed.
Lemma collect_agrees : forall m Q d h, functional m -> (forall x ks, In (x, ks) Q -> exists c, c <> 0%N /\ In (x, c) m) -> collect_d m Q d h = collect Q d h.
Proof.
  intros m Q d h F H. unfold collect_d, collect. generalize (@nil (N * nat * list (list N))). induction Q as [|(x & ks) Q IH]; intros acc; cbn [foldM fst snd]; auto.
  destruct (H x ks (or_introl eq_refl)) as (c & Nc & Ic). assert (X : map_count m x = true) by (apply map_count_spec; apply in_map_iff; exists (x, c); auto). rewrite X, (map_get_spec m x c F Ic). destruct (N.eqb_spec c 0); [congruence|]. cbn [assert_that negb bind].
  destruct (explore ks d); cbn [bind]; auto. apply IH. intros x' ks' I. apply (H x' ks'). now right.
Qed.

(** ** the lists a level makes, in order *)
Definition ordered (F : list edge) (k : nat) : list edge := flat_map (mine F) (seq 0 k).
Lemma ordered_S : forall F k, ordered F (S k) = ordered F k ++ mine F k.
Proof. intros F k. unfold ordered. rewrite seq_S, flat_map_app. cbn [flat_map Nat.add]. now rewrite app_nil_r. Qed.
Lemma ordered_in : forall F k e, In e (ordered F k) <-> In e F /\ (tc e < N.of_nat k)%N.
Proof.
  intros F k e. unfold ordered. rewrite in_flat_map. split.
  - intros (c & C1 & C2). apply in_seq in C1. apply mine_spec in C2. destruct C2 as (C2 & C3). split; auto. lia.
  - intros (A & B). exists (N.to_nat (tc e)). split; [apply in_seq; lia|]. apply mine_spec. split; auto. lia.
Qed.
Theorem level_lists : forall legacy h0 h1 F m, (forall e, In e F -> (tc e < 256)%N /\ h0 + tid e < h1) -> exists st, foldM (char_step legacy h0 h1 F) (seq 0 256) (start m) = Ok st /\ Placed h0 h1 m F st /\
  lv_map st = m ++ map (fun e => (posn h0 (lv_row st) e, tc e)) (ordered F 256) /\ lv_queue st = map (fun e => (posn h0 (lv_row st) e, snd e)) (filter (fun e => negb (tc e =? 0)%N) (ordered F 256)).
Proof.
  intros legacy h0 h1 F m HF. destruct (level_pair legacy h0 h1 F F m m HF) as (st0 & st0' & R0 & _ & _ & _ & P0 & _); [intros x; reflexivity|]. set (E := canon F).
  assert (HE : forall e, In e E -> (tc e < 256)%N /\ h0 + tid e < h1).
  { intros e He. assert (Hk : In (fst e) (keyset F)) by (apply canon_same; now apply in_map). apply in_map_iff in Hk. destruct Hk as (f & Q & Hf). unfold tc, tid in *. rewrite <- Q. apply HF. exact Hf. }
  assert (HD : NoDup (map fst E)). { change (map fst E) with (keyset E). unfold E. rewrite canon_keys. apply NoDup_nodup. }
  assert (S1 : same_set (keyset E) (keyset F)) by apply canon_same.
  assert (G : forall k, k <= 256 -> exists st', foldM (char_step legacy h0 h1 F) (seq 0 k) (start m) = Ok st' /\ lv_map st' = m ++ map (fun e => (posn h0 (lv_row st') e, tc e)) (ordered F k) /\ lv_queue st' = map (fun e => (posn h0 (lv_row st') e, snd e)) (filter (fun e => negb (tc e =? 0)%N) (ordered F k))).
  { induction k as [|k IH]; intros Hk.
    - exists (start m). split; auto. cbn [start lv_map lv_queue ordered seq flat_map map filter]. now rewrite app_nil_r.
    - destruct IH as (st1 & E1 & M1 & Q1); [lia|]. destruct (chars_pair h0 h1 E F HE S1 HD legacy m k ltac:(lia)) as (st & st' & l & D & Es & Es' & I & R & HDI & SS & MH & QH). assert (st' = st1) by congruence. subst st'.
      destruct (char_pair h0 h1 E F HE S1 legacy D [] st st1 l k I R ltac:(lia) SS) as (s1 & s1' & X1 & X2 & SS1 & G1 & G2). exists s1'. rewrite seq_S, foldM_app, E1. cbn [bind Nat.add foldM]. rewrite X2. cbn [bind]. split; auto.
      pose proof (fun e => grown_posn h0 h1 E HE F k st1 s1' e G2) as P. destruct G2 as (Gm & Gq & _). rewrite Gm, Gq, M1, Q1, !ordered_S, filter_app, !map_app, app_assoc. split.
      + f_equal. f_equal. apply map_ext_in. intros e He. apply ordered_in in He. rewrite P by lia. reflexivity.
      + f_equal; [apply map_ext_in; intros e He; apply filter_In in He; destruct He as (He & _); apply ordered_in in He; rewrite P by lia; reflexivity|].
        destruct (N.eqb_spec (N.of_nat k) 0) as [K0|K0].
        * rewrite filter_nil; auto. intros e He. apply mine_spec in He. destruct He as (_ & He). rewrite He, K0. reflexivity.
        * rewrite filter_all; auto. intros e He. apply mine_spec in He. destruct He as (_ & He). rewrite He. destruct (N.eqb_spec (N.of_nat k) 0); [contradiction|reflexivity]. }
  destruct (G 256 (le_n _)) as (st & E1 & M1 & Q1). assert (st = st0) by congruence. subst st. exists st0. auto.
Qed.
