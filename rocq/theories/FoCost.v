(** Proofs about FoCostModel.v *)
From Coq Require Import List NArith ZArith Arith Bool Lia Permutation.
From Verif Require Import Base CostBase Spec20 Spec28 FoModel FoFree FoArray FoOracle FoProof FoExact FoSize FoCostModel.
Import ListNotations.
Local Open Scope nat_scope.

(** ** the counting version does the same *)
Definition same {A} (m : cres A) (r : res A) : Prop := forall k, rmap snd (m k) = r.
Lemma same_ret : forall A (a : A), same (cret a) (Ok a).
Proof. intros A a k. reflexivity. Qed.
Lemma same_free : forall A (r : res A), same (free r) r.
Proof. intros A r k. unfold free. now destruct r. Qed.
Lemma same_paid : forall A (r : res A), same (paid r) r.
Proof. intros A r k. unfold paid. now destruct r. Qed.
Lemma same_bind : forall A B (m : cres A) r (f : A -> cres B) g, same m r -> (forall x, same (f x) (g x)) -> same (cbind m f) (bind r g).
Proof. intros A B m r f g H F k. unfold cbind. specialize (H k). destruct (m k) as [[k' x]| | |]; cbn in H; subst r; cbn; auto. apply F. Qed.

Lemma walk_same : forall steps fuel lrs st k n, same (fo_walk_c steps fuel lrs st k n) (fo_walk steps fuel lrs st k n).
Proof.
  induction steps as [|steps IH]; intros fuel lrs st k n; cbn [fo_walk_c fo_walk]; [apply same_free|]. destruct (k <? n); [|apply same_ret]. apply same_bind; [apply same_paid|]. intros t.
  destruct (t =? 0); [|apply same_ret]. apply same_bind; [apply same_paid|]. intros st'. apply same_bind; [apply same_free|]. intros k'. apply IH.
Qed.
Lemma letter_same : forall fuel sl i, same (fo_letter_c fuel sl i) (fo_letter fuel sl i).
Proof.
  intros fuel (st & lrs) i. unfold fo_letter_c, fo_letter. apply same_bind; [apply same_free|]. intros l1. apply same_bind; [apply same_free|]. intros k. apply same_bind; [apply walk_same|].
  intros (st' & k'). apply same_bind; [destruct (k' =? i + 1); [apply same_ret|apply same_paid]|]. intros v. apply same_bind; [apply same_free|]. intros l2. apply same_ret.
Qed.
Lemma letters_same : forall fuel is sl, same (fo_letters_c fuel is sl) (foldM (fo_letter fuel) is sl).
Proof. intros fuel. induction is as [|i is IH]; intros sl; cbn [fo_letters_c foldM]; [apply same_ret|]. apply same_bind; [apply letter_same|]. intros. apply IH. Qed.
Lemma build_same : forall fuel text, same (fo_build_c fuel text) (fo_build fuel text).
Proof.
  intros fuel text. unfold fo_build_c, fo_build. apply same_bind; [apply same_free|]. intros st. apply same_bind; [apply same_free|]. intros st'. apply same_bind; [apply letters_same|]. intros r. apply same_ret.
Qed.
Lemma letters_snoc : forall fuel a i sl c, fo_letters_c fuel (a ++ [i]) sl c = do r <- fo_letters_c fuel a sl c; fo_letter_c fuel (snd r) i (fst r).
Proof.
  intros fuel a i. induction a as [|x a IH]; intros sl c; cbn [app fo_letters_c].
  - cbn. unfold cbind. destruct (fo_letter_c fuel sl i c) as [[k x]| | |]; reflexivity.
  - unfold cbind. destruct (fo_letter_c fuel sl x c) as [[k y]| | |]; cbn [bind]; auto.
Qed.

(** ** how often *)
Lemma letters_more : forall (a : list N) x, length (nodup N.eq_dec (a ++ [x])) = length (nodup N.eq_dec a) + (if in_dec N.eq_dec x a then 0 else 1).
Proof.
  intros a x. destruct (in_dec N.eq_dec x a) as [I|I].
  - rewrite Nat.add_0_r. apply Permutation_length, NoDup_Permutation; try apply NoDup_nodup. intros y. rewrite !nodup_In, in_app_iff. cbn. intuition (subst; auto).
  - rewrite Nat.add_1_r. change (S (length (nodup N.eq_dec a))) with (length (x :: nodup N.eq_dec a)). apply Permutation_length, NoDup_Permutation; [apply NoDup_nodup|constructor; [now rewrite nodup_In|apply NoDup_nodup]|].
    intros y. rewrite nodup_In, in_app_iff. cbn. rewrite nodup_In. intuition auto.
Qed.
Section Calls.
Variable ck : list N.
Hypothesis Hck : forall i, i < length ck -> (0 < nth i ck 0 < 256)%N.
Let m := length ck.

Lemma walk_calls : forall fuel i lrs log0, i < m -> (forall j, 1 <= j <= i -> nth j lrs 0 < j) -> nth 0 lrs 0 = i + 1 -> length lrs = m + 1 ->
  forall steps st q R log k c, Arr ck st q R log -> Walk ck i lrs log0 log k ->
  forall c' st' k', fo_walk_c steps fuel lrs st k (i + 1) c = Ok (c', (st', k')) ->
  exists q' R' log' r, Arr ck st' q' R' log' /\ Walk ck i lrs log0 log' k' /\ (if k' =? i + 1 then Ok 0 else fo_transition st' k' (i + 1)) = Ok r /\
    ((k' = i + 1 /\ r = 0) \/ (k' <= i /\ D ck log' k' r /\ chk ck r = chk ck (i + 1))) /\ length log <= length log' /\ c' = c + 2 * (length log' - length log) + (if k' =? i + 1 then 0 else 1).
Proof.
  intros fuel i lrs log0 Hi Hlt H0 Hl. induction steps as [|steps IH]; intros st q R log k c A W c' st' k' E; [discriminate|]. cbn [fo_walk_c] in E.
  destruct (Nat.ltb_spec k (i + 1)) as [Lk|Lk].
  - assert (Vn : FoFree.valid ck (i + 1)) by (split; fold m; lia). assert (Km : k < length ck) by (fold m; lia).
    destruct (transition_ok ck Hck st q R log k (i + 1) A Km Vn) as (r & Er & Hr). unfold cbind at 1 in E. unfold paid at 1 in E. rewrite Er in E. cbn [bind fst snd] in E.
    destruct (Nat.eqb_spec r 0) as [Zr|Nr]; [subst r|].
    + assert (Hr' : chk ck (k + 1) <> chk ck (i + 1) /\ forall t, In (k, t) log -> chk ck t <> chk ck (i + 1)).
      { destruct Hr as [(_ & C)|(Hc & [(I & _)|(_ & I)])]; [lia| |split; auto]. destruct (ar_edge _ _ _ _ _ A _ _ I) as (C & _). lia. }
      clear Hr. destruct Hr' as (Hc & Hn). unfold cbind at 1 in E. unfold paid at 1 in E. destruct (insert_ok ck Hck fuel st q R log k (i + 1) A ltac:(lia) Vn Hn) as [(E1 & C)|(st1 & q' & R' & E1 & A' & Q')]; rewrite E1 in E; cbn [bind fst snd] in E; [discriminate|].
      unfold cbind at 1 in E. unfold free at 1 in E. rewrite (lget_nth _ lrs k 0) in E by lia. cbn [bind fst snd] in E.
      assert (W' : Walk ck i lrs log0 ((k, i + 1) :: log) (nth k lrs 0)) by (apply walk_step; auto; lia).
      destruct (IH st1 q' R' ((k, i + 1) :: log) (nth k lrs 0) (S (S c)) A' W' c' st' k' E) as (q2 & R2 & log2 & r2 & B1 & B2 & B3 & B4 & B5 & B6).
      exists q2, R2, log2, r2. cbn [length] in B5, B6. split; auto. split; auto. split; auto. split; auto. split; lia.
    + unfold cret in E. assert (c' = S c /\ st' = st /\ k' = k) as (-> & -> & ->) by (repeat split; congruence). exists q, R, log, r. rewrite (proj2 (Nat.eqb_neq _ _)) by lia. split; auto. split; auto. split; auto. split; [|split; lia]. right. split; [lia|].
      destruct Hr as [(Hc & X)|(Hc & [(I & X)|(C & _)])]; [|split; [now right|auto]|congruence]. subst r. split; [left; fold m; lia|auto].
  - destruct (wk_k _ _ _ _ _ _ W) as [Ek|(C & _)]; [|lia]. unfold cret in E. assert (c' = c /\ st' = st /\ k' = k) as (-> & -> & ->) by (repeat split; congruence). exists q, R, log, 0. rewrite (proj2 (Nat.eqb_eq _ _)) by auto. split; auto. split; auto. split; auto. split; [auto|]. split; lia.
Qed.
Lemma in_firstn : forall i c, i <= m -> In c (firstn i ck) <-> exists j, 1 <= j <= i /\ chk ck j = c.
Proof.
  intros i c Hi. unfold chk. split.
  - intros I. apply (In_nth _ _ 0%N) in I. destruct I as (j & Hj & <-). rewrite firstn_length in Hj. exists (j + 1). split; [lia|]. rewrite Nat.add_sub. rewrite <- (firstn_skipn i ck) at 1. rewrite app_nth1; auto. rewrite firstn_length; lia.
  - intros (j & Hj & <-). rewrite <- (firstn_skipn i ck) at 1. fold m in Hi. assert (Ll : length (firstn i ck) = i) by (rewrite firstn_length; unfold m in Hi; lia). rewrite app_nth1 by lia. apply nth_In. lia.
Qed.
(** a walk runs past the first state exactly if the letter is new *)
Lemma walk_new : forall i lrs log0 log k r, i < m -> Inv ck i lrs log0 -> Walk ck i (upd lrs 0 (i + 1)) log0 log k -> ((k = i + 1 /\ r = 0) \/ (k <= i /\ D ck log k r /\ chk ck r = chk ck (i + 1))) ->
  (k = i + 1 <-> ~ In (chk ck (i + 1)) (firstn i ck)).
Proof.
  intros i lrs log0 log k r Hi I W Hr. rewrite in_firstn by lia. pose proof (wk_log _ _ _ _ _ _ W) as Lg. split.
  - intros -> (j & Hj & Ej). assert (D1 : D ck log0 (j - 1) j) by (left; fold m; lia). pose proof (sup_zero ck Hck lrs i (iv_lt _ _ _ _ I) (j - 1) ltac:(lia)) as S0.
    destruct (iv_B _ _ _ _ I _ _ D1 ltac:(lia) 0 S0) as (t & Dt & Lt & Et & _). rewrite Ej in Et.
    assert (Sz : sup (upd lrs 0 (i + 1)) 0 i). { apply (sup_zero ck Hck _ i); [|lia]. intros x Hx. rewrite nth_upd, (proj2 (Nat.eqb_neq x 0)) by lia. apply (iv_lt _ _ _ _ I x Hx). }
    destruct (wk_all _ _ _ _ _ _ W 0 Sz) as [C|[(C & _)|In0]]; [lia|lia|]. destruct Dt as [(-> & _)|It].
    + apply (lg_edge _ _ _ Lg) in In0. destruct In0 as (_ & C). apply C. exact Et.
    + assert (It' : In (0, t) log) by (apply (wk_old _ _ _ _ _ _ W); auto). pose proof (lg_det _ _ _ Lg _ _ _ It' In0 Et). lia.
  - intros Hn. destruct Hr as [(Ek & _)|(Lk & Dr & Er)]; auto. destruct (wk_k _ _ _ _ _ _ W) as [Ek|(Lt & _)]; auto. exfalso. apply Hn. exists r. split; auto. destruct Dr as [(-> & _)|Ir]; [lia|].
    destruct (lg_edge _ _ _ Lg _ _ Ir) as (Hb & _). destruct (Nat.eq_dec r (i + 1)) as [->|]; [|lia]. destruct (wk_new _ _ _ _ _ _ W _ Ir) as (_ & _ & C & _). lia.
Qed.
Lemma walk_adds : forall i lrs log0 log, 1 <= i < m -> Inv ck i lrs log0 -> Walk ck i (upd lrs 0 (i + 1)) log0 log (i + 1) -> length log0 < length log.
Proof.
  intros i lrs log0 log Hi I W. assert (Sz : sup (upd lrs 0 (i + 1)) 0 i). { apply (sup_zero ck Hck _ i); [|lia]. intros x Hx. rewrite nth_upd, (proj2 (Nat.eqb_neq x 0)) by lia. apply (iv_lt _ _ _ _ I x Hx). }
  destruct (wk_all _ _ _ _ _ _ W 0 Sz) as [C|[(C & _)|In0]]; [lia|lia|]. change (length ((0, i + 1) :: log0) <= length log). apply NoDup_incl_length.
  - constructor; [|apply (lg_nodup _ _ _ (iv_log _ _ _ _ I))]. intros C. apply (lg_edge _ _ _ (iv_log _ _ _ _ I)) in C. lia.
  - intros [s t] [E|J]; [now rewrite <- E|]. apply (wk_old _ _ _ _ _ _ W). auto.
Qed.
Lemma letter_calls : forall fuel i lrs st q R log c, i < m -> Arr ck st q R log -> Inv ck i lrs log ->
  forall c' st' lrs', fo_letter_c fuel (st, lrs) i c = Ok (c', (st', lrs')) ->
  exists q' R' log', Arr ck st' q' R' log' /\ Inv ck (i + 1) lrs' log' /\ length log <= length log' /\ c' = c + 2 * (length log' - length log) + (if in_dec N.eq_dec (chk ck (i + 1)) (firstn i ck) then 2 else 0) /\ (~ In (chk ck (i + 1)) (firstn i ck) -> 1 <= i -> length log < length log').
Proof.
  intros fuel i lrs st q R log c Hi A I c' st' lrs' E. pose proof (iv_len _ _ _ _ I) as Ll. fold m in Ll. pose proof (walk_start ck Hck i lrs log I Hi) as W. unfold fo_letter_c in E.
  unfold cbind at 1 in E. unfold free at 1 in E. rewrite lset_Ok in E by lia. cbn [bind fst snd] in E. set (L := upd lrs 0 (i + 1)) in *. assert (LL : length L = m + 1) by (unfold L; rewrite upd_length; auto).
  unfold cbind at 1 in E. unfold free at 1 in E. rewrite (lget_nth _ L i 0) in E by lia. cbn [bind fst snd] in E.
  assert (Hlt : forall j, 1 <= j <= i -> nth j L 0 < j) by (intros j Hj; unfold L; rewrite nth_upd, (proj2 (Nat.eqb_neq j 0)) by lia; apply (iv_lt _ _ _ _ I j Hj)).
  assert (H0 : nth 0 L 0 = i + 1) by (unfold L; rewrite nth_upd; cbn [Nat.eqb andb]; rewrite (proj2 (Nat.ltb_lt _ _)) by lia; reflexivity).
  unfold cbind at 1 in E. destruct (fo_walk_c (i + 3) fuel L st (nth i L 0) (i + 1) c) as [[c1 [st1 k1]]| | |] eqn:Ew; cbn [bind fst snd] in E; try discriminate.
  destruct (walk_calls fuel i L log Hi Hlt H0 LL (i + 3) st q R log (nth i L 0) c A W c1 st1 k1 Ew) as (q' & R' & log' & r & A' & W' & Er & Hr & Lg & Ec).
  assert (Et : exists c2, (if k1 =? i + 1 then cret 0 else paid (fo_transition st1 k1 (i + 1))) c1 = Ok (c2, r) /\ c2 = c1 + (if k1 =? i + 1 then 0 else 1)).
  { destruct (k1 =? i + 1); [injection Er as <-; exists c1; split; [reflexivity|lia]|]. unfold paid. rewrite Er. cbn [bind]. exists (S c1). split; [reflexivity|lia]. }
  destruct Et as (c2 & Et & Hc2). unfold cbind at 1 in E. rewrite Et in E. cbn [bind fst snd] in E. unfold cbind at 1 in E. unfold free at 1 in E. rewrite lset_Ok in E by lia. cbn [bind fst snd] in E. unfold cret in E.
  assert (c' = c2 /\ st' = st1 /\ lrs' = upd L (i + 1) r) as (-> & -> & ->) by (repeat split; congruence). exists q', R', log'. split; auto. split; [eapply walk_end; eauto|]. split; auto.
  pose proof (walk_new i lrs log log' k1 r Hi I W' Hr) as Wn. split; [|intros J H1; apply (walk_adds i lrs log log'); [lia|exact I|]; apply (proj2 Wn) in J; rewrite J in W'; exact W']. destruct (Nat.eqb_spec k1 (i + 1)) as [Ek|Ek]; destruct (in_dec N.eq_dec (chk ck (i + 1)) (firstn i ck)) as [J|J]; [now apply Wn in Ek|lia|lia|now apply Wn in J].
Qed.
Lemma start_inv : Inv ck 0 (repeat 0 (m + 1)) [].
Proof.
  constructor.
  - apply repeat_length.
  - intros j Hj. lia.
  - constructor; [intros s t []|intros s t t' []|constructor|simpl; lia].
  - intros s t [(E & _)|[]] Lt. lia.
  - intros s t ds dt [(E & _)|[]] Lt. lia.
  - intros d Hd. inversion Hd; [simpl; lia|lia].
  - intros s t [(E & _)|[]] Lt. lia.
  - intros j Hj. lia.
Qed.
Lemma letters_calls : forall fuel st q R, Arr ck st q R [] -> forall i, i <= m -> forall c' st' lrs', fo_letters_c fuel (seq 0 i) (st, repeat 0 (m + 1)) 0 = Ok (c', (st', lrs')) ->
  exists q' R' log', Arr ck st' q' R' log' /\ Inv ck i lrs' log' /\ c' + 2 * length (nodup N.eq_dec (firstn i ck)) = 2 * length log' + 2 * i /\ length (nodup N.eq_dec (firstn i ck)) <= length log' + 1.
Proof.
  intros fuel st q R A. induction i as [|i IH]; intros Hi c' st' lrs' E.
  - cbn [seq fo_letters_c] in E. unfold cret in E. assert (c' = 0 /\ st' = st /\ lrs' = repeat 0 (m + 1)) as (-> & -> & ->) by (repeat split; congruence). exists q, R, []. split; auto. split; [apply start_inv|cbn; lia].
  - rewrite seq_S, letters_snoc in E. destruct (fo_letters_c fuel (seq 0 i) (st, repeat 0 (m + 1)) 0) as [[c1 [st1 l1]]| | |]; cbn [bind fst snd plus] in E; try discriminate.
    destruct (IH ltac:(lia) c1 st1 l1 eq_refl) as (q1 & R1 & log1 & A1 & I1 & H1). destruct (letter_calls fuel i l1 st1 q1 R1 log1 c1 ltac:(lia) A1 I1 c' st' lrs' E) as (q2 & R2 & log2 & A2 & I2 & G2 & H2 & N2).
    exists q2, R2, log2. split; auto. split; [now replace (S i) with (i + 1) by lia|].
    replace (S i) with (i + 1) by lia. rewrite firstn_chk by (fold m; lia). rewrite letters_more. destruct (in_dec N.eq_dec (chk ck (i + 1)) (firstn i ck)) as [J|J]; [lia|]. split; [lia|]. destruct i as [|i]; [cbn; lia|]. specialize (N2 J ltac:(lia)). lia.
Qed.
End Calls.

Theorem build_calls : forall fuel text k o, Forall (fun c => (0 < c < 256)%N) text -> counted (fo_build_c fuel text) = Ok (k, o) ->
  exists E L, factor_oracle text E /\ NoDup L /\ (forall s c t, In (s, c, t) L <-> E s c t) /\ k + 2 * length (nodup N.eq_dec text) = 2 * length L /\ 2 * length text <= k + 2 /\ k + 4 <= 4 * length text.
Proof.
  intros fuel text k o Hz E. pose proof (nonzero_nth _ Hz) as Hck. assert (Eb : fo_build fuel text = Ok o) by (rewrite <- (build_same fuel text 0); unfold counted in E; now rewrite E).
  assert (Hm : 1 <= length text) by (destruct text; [rewrite build_empty in Eb; discriminate|simpl; lia]).
  destruct (oracle_size fuel text o Hz Eb) as (Ed & L & H1 & H2 & H3 & H4 & _ & H5 & _). exists Ed, L. split; auto. split; auto. split; auto.
  destruct (start_ok text Hck Hm) as (st & q0 & R & Es & A & _). unfold counted, fo_build_c in E. unfold cbind at 1 in E. unfold free at 1 in E.
  destruct (fo_grow (length text) (fo_init text)) as [st0| | |]; cbn [bind fst snd] in E, Es; try discriminate. unfold cbind at 1 in E. unfold free at 1 in E. rewrite Es in E. cbn [bind fst snd] in E. unfold cbind at 1 in E.
  destruct (fo_letters_c fuel (seq 0 (length text)) (st, repeat 0 (length text + 1)) 0) as [[c [st' l']]| | |] eqn:El; cbn [bind fst snd] in E; try discriminate. unfold cret in E.
  assert (Ek : k = c) by congruence. assert (Eo : fo_next o = fo_clear st') by (assert (o = {| fo_chk := text; fo_base := fb_base st'; fo_next := fo_clear st' |}) by congruence; subst o; reflexivity). subst k.
  destruct (letters_calls text Hck fuel st q0 R A (length text) (le_n _) c st' l' El) as (q' & R' & log & A' & I' & Hc). rewrite Eo in H5. rewrite firstn_all in Hc.
  rewrite (taken_slots text Hck st' q' R' log A' (lg_nodup _ _ _ (iv_log _ _ _ _ I'))) in H5.
  assert (Hd : 1 <= length (nodup N.eq_dec text)). { destruct text as [|x tx]; [simpl in Hm; lia|]. assert (In x (nodup N.eq_dec (x :: tx))) by (apply nodup_In; now left). destruct (nodup N.eq_dec (x :: tx)); [contradiction|simpl; lia]. }
  split; lia.
Qed.
Theorem build_uncounted : forall fuel text, rmap snd (counted (fo_build_c fuel text)) = fo_build fuel text.
Proof. intros. apply (build_same fuel text 0). Qed.
