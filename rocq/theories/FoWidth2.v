(** FactorOracle with ids of w bits in lockstep with FoModel.v. *)
From Coq Require Import List NArith ZArith Arith Bool Lia.
From Verif Require Import Base Spec4 Spec20 Spec28 FoModel FoFree FoArray FoOracle FoProof FoExact FoSize FoWidthModel FoWidth.
Import ListNotations.
Local Open Scope nat_scope.

(** ** the arrays only grow, all by the same amount *)
Definition grown (st st' : fob) : Prop := exists d, length (fb_next st') = length (fb_next st) + d /\ length (fb_ut st') = length (fb_ut st) + d /\ length (fb_us st') = length (fb_us st) + d.
Ltac inv H := apply bind_Ok_inv in H.
Lemma grown_refl : forall st, grown st st.
Proof. intros st. exists 0. lia. Qed.
Lemma grown_trans : forall a b c, grown a b -> grown b c -> grown a c.
Proof. intros a b c (d & H) (e & K). exists (d + e). lia. Qed.
Lemma link_len : forall l nx pv nx' pv', foldM link_block l (nx, pv) = Ok (nx', pv') -> length nx' = length nx.
Proof.
  induction l as [|i l IH]; intros nx pv nx' pv' H; cbn [foldM] in H; [injection H as <- _; auto|]. inv H. destruct H as ([nx1 pv1] & E & H). apply IH in H. rewrite H. unfold link_block in E. cbn [fst snd] in E.
  inv E. destruct E as (n1 & E1 & E). inv E. destruct E as (p1 & _ & E). injection E as <- _. apply lset_len in E1. tauto.
Qed.
Opaque repeat.
Lemma expand_grown : forall st st', expand_block st = Ok st' -> grown st st'.
Proof.
  intros st st' H. unfold expand_block in H. cbv zeta in H. inv H. destruct H as (u0 & _ & H). inv H. destruct H as ([[nx pv] front] & E & H).
  inv H. destruct H as (nx1 & E1 & H). inv H. destruct H as ([nx2 pv2] & E2 & H). inv H. destruct H as (nx3 & E3 & H). inv H. destruct H as (pv3 & _ & H). injection H as <-.
  exists 256. cbn [fb_next fb_ut fb_us]. rewrite !app_length, !repeat_length. apply lset_len in E1 as [E1 _]. apply link_len in E2. apply lset_len in E3 as [E3 _].
  assert (G : length nx = length (fb_next st) + 256).
  { destruct (_ || _).
    - inv E. destruct E as (ob & _ & E). inv E. destruct E as (p1 & _ & E). inv E. destruct E as (n1 & F & E). inv E. destruct E as (p2 & _ & E). injection E as <- _ _. apply lset_len in F as [F _]. rewrite F, app_length, repeat_length. reflexivity.
    - inv E. destruct E as (p1 & _ & E). injection E as <- _ _. rewrite app_length, repeat_length. reflexivity. }
  lia.
Qed.
Transparent repeat.
Lemma find_grown : forall fuel c0 ts st i st' b, find_loop fuel c0 ts st i = Ok (st', b) -> grown st st' /\ b < length (fb_us st').
Proof.
  induction fuel as [|fuel IH]; intros c0 ts st i st' b H; cbn [find_loop] in H; [discriminate|]. cbv zeta in H. inv H. destruct H as (us & EU & H). inv H. destruct H as (ok & _ & H).
  destruct ok. { injection H as <- <-. split; [apply grown_refl|]. unfold lget in EU. destruct (nth_error (fb_us st) (slot i c0)) eqn:F; [|discriminate]. apply nth_error_Some. congruence. }
  inv H. destruct H as (n & _ & H). inv H. destruct H as (n1 & _ & H). inv H. destruct H as (st1 & E & H). inv H. destruct H as (n2 & _ & H). inv H. destruct H as (n3 & _ & H). apply IH in H as [H1 H2]. split; auto.
  eapply grown_trans; [|exact H1]. destruct (_ =? _); [apply expand_grown; auto|injection E as <-; apply grown_refl].
Qed.
Lemma base_grown : forall fuel st ts st' b, find_base fuel st ts = Ok (st', b) -> grown st st' /\ b < length (fb_us st').
Proof. intros fuel st ts st' b H. unfold find_base in H. inv H. destruct H as (t0 & _ & H). inv H. destruct H as (c0 & _ & H). eapply find_grown; eauto. Qed.
Lemma set_next_grown : forall st i x st', set_next st i x = Ok st' -> grown st st'.
Proof.
  intros st i x st' H. unfold set_next in H. inv H. destruct H as (n & _ & H). inv H. destruct H as ([[nx pv] front] & E & H). inv H. destruct H as (ut & E1 & H). inv H. destruct H as (nx1 & E2 & H). injection H as <-.
  exists 0. cbn [fb_next fb_ut fb_us]. apply lset_len in E1 as [E1 _]. apply lset_len in E2 as [E2 _]. rewrite E1, E2.
  assert (G : length nx = length (fb_next st)).
  { destruct n as [n|]; [|injection E as <- _ _; reflexivity]. cbv zeta in E. inv E. destruct E as (p & _ & E). inv E. destruct E as (n1 & F & E). inv E. destruct E as (p1 & _ & E). injection E as <- _ _. apply lset_len in F. tauto. }
  lia.
Qed.
Lemma set_base_grown : forall st i x st', set_base st i x = Ok st' -> grown st st'.
Proof. intros st i x st' H. unfold set_base in H. inv H. destruct H as (n & _ & H). injection H as <-. exists 0. cbn. lia. Qed.
Lemma set_us_grown : forall st i x st', set_us st i x = Ok st' -> grown st st'.
Proof. intros st i x st' H. unfold set_us in H. inv H. destruct H as (n & E & H). injection H as <-. exists 0. cbn. apply lset_len in E. lia. Qed.
Lemma move_grown : forall b nb st t st', move_trans b nb st t = Ok st' -> grown st st'.
Proof.
  intros b nb st t st' H. unfold move_trans in H. inv H. destruct H as (c & _ & H). cbv zeta in H. inv H. destruct H as (nx & E1 & H). inv H. destruct H as (ut & E2 & H). apply set_next_grown in H as (d & H). exists d. cbn in H.
  apply lset_len in E1. apply lset_len in E2. lia.
Qed.
Lemma moves_grown : forall b nb ts st st', foldM (move_trans b nb) ts st = Ok st' -> grown st st'.
Proof. induction ts as [|t ts IH]; intros st st' H; cbn [foldM] in H; [injection H as <-; apply grown_refl|]. inv H. destruct H as (st1 & E & H). eapply grown_trans; [eapply move_grown; eauto|eauto]. Qed.
Lemma insert_grown : forall fuel st s n st', insert_trans fuel st s n = Ok st' -> grown st st'.
Proof.
  intros fuel st s n st' H. unfold insert_trans in H. inv H. destruct H as (c & _ & H). inv H. destruct H as (b & _ & H). destruct b as [b|].
  - inv H. destruct H as (u & _ & H). destruct u; [|eapply set_next_grown; eauto]. inv H. destruct H as (ts & _ & H). inv H. destruct H as ([st1 nb] & E & H). inv H. destruct H as (st2 & E2 & H). inv H. destruct H as (st3 & E3 & H).
    inv H. destruct H as (st4 & E4 & H). inv H. destruct H as (st5 & E5 & H). apply set_next_grown in H. apply moves_grown in E5. apply set_base_grown in E4. apply set_us_grown in E3. apply set_us_grown in E2. apply base_grown in E as [E _]. eauto 10 using grown_trans.
  - inv H. destruct H as ([st1 nb] & E & H). inv H. destruct H as (st2 & E2 & H). inv H. destruct H as (st3 & E3 & H). apply set_us_grown in H. apply set_next_grown in E3. apply set_base_grown in E2. apply base_grown in E as [E _]. eauto 10 using grown_trans.
Qed.
Lemma walk_grown : forall steps fuel lrs st k n st' k', fo_walk steps fuel lrs st k n = Ok (st', k') -> grown st st'.
Proof.
  induction steps as [|steps IH]; intros fuel lrs st k n st' k' H; cbn [fo_walk] in H; [discriminate|]. destruct (k <? n); [|injection H as <- _; apply grown_refl]. inv H. destruct H as (t & _ & H).
  destruct (t =? 0); [|injection H as <- _; apply grown_refl]. inv H. destruct H as (st1 & E & H). inv H. destruct H as (k1 & _ & H). apply IH in H. apply insert_grown in E. eauto using grown_trans.
Qed.
Lemma letter_grown : forall fuel st lrs i st' lrs', fo_letter fuel (st, lrs) i = Ok (st', lrs') -> grown st st'.
Proof.
  intros fuel st lrs i st' lrs' H. unfold fo_letter in H. inv H. destruct H as (l1 & E1 & H). inv H. destruct H as (k & _ & H). inv H. destruct H as ([st1 k1] & E2 & H). inv H. destruct H as (v & _ & H).
  inv H. destruct H as (l2 & E3 & H). injection H as <- <-. eapply walk_grown; eauto.
Qed.
Lemma letters_grown : forall fuel l st lrs st' lrs', foldM (fo_letter fuel) l (st, lrs) = Ok (st', lrs') -> grown st st'.
Proof. induction l as [|i l IH]; intros st lrs st' lrs' H; cbn [foldM] in H; [injection H as <- _; apply grown_refl|]. inv H. destruct H as ([st1 lrs1] & E & H). eapply grown_trans; [eapply letter_grown; eauto|eauto]. Qed.
Lemma grow_grown : forall steps st st', fo_grow steps st = Ok st' -> grown st st'.
Proof.
  induction steps as [|steps IH]; intros st st' H; cbn [fo_grow] in H; destruct (_ <? _); try discriminate; try (injection H as <-; apply grown_refl).
  inv H. destruct H as (st1 & E & H). eapply grown_trans; [eapply expand_grown; eauto|eauto].
Qed.

Section S.
Variables (w : N) (B : nat).
Notation tr := (FoWidthModel.tr w).
Notation nil_id := (FoWidthModel.nil_id w).
Hypothesis BW : (N.of_nat B < 2 ^ w)%N.
Definition enc (x : option nat) : nat := match x with Some n => n | None => nil_id end.
Definition below (x : option nat) : Prop := match x with Some n => n < B | None => True end.
Lemma tr_id : forall x, x <= B -> tr x = x.
Proof. intros x H. unfold FoWidthModel.tr. rewrite N.mod_small by lia. apply Nat2N.id. Qed.
Lemma nil_not : forall x, x < B -> (x =? nil_id) = false.
Proof. intros x H. apply Nat.eqb_neq. unfold FoWidthModel.nil_id. lia. Qed.
Lemma nil_eq : (nil_id =? nil_id) = true.
Proof. apply Nat.eqb_refl. Qed.
Lemma get_enc : forall l i x, lget l i = Ok x -> lget (map enc l) i = Ok (enc x).
Proof. intros l i x H. unfold lget in *. rewrite nth_error_map. destruct (nth_error l i); [|discriminate]. injection H as <-. reflexivity. Qed.
Lemma get_all : forall A (P : A -> Prop) l i x, Forall P l -> lget l i = Ok x -> P x.
Proof. intros A P l i x H E. unfold lget in E. destruct (nth_error l i) eqn:F; [|discriminate]. injection E as <-. apply nth_error_In in F. exact (proj1 (Forall_forall _ _) H _ F). Qed.
Lemma map_upd' : forall l i x, map enc (upd l i x) = upd (map enc l) i (enc x).
Proof. induction l as [|y l IH]; intros [|i] x; cbn [upd map]; auto. now rewrite IH. Qed.
Lemma set_enc : forall l i x l', lset l i x = Ok l' -> lset (map enc l) i (enc x) = Ok (map enc l').
Proof. intros l i x l' H. apply lset_len in H as (_ & H & ->). rewrite lset_Ok by (rewrite map_length; auto). now rewrite map_upd'. Qed.
Lemma set_all : forall A (P : A -> Prop) l i x l', Forall P l -> P x -> lset l i x = Ok l' -> Forall P l'.
Proof. intros A P l i x l' H K E. apply lset_len in E as (_ & _ & ->). clear -H K. revert i. induction H; intros [|i]; cbn [upd]; constructor; auto. Qed.
Lemma enc_zeros : forall k, map enc (repeat (Some 0) k) = repeat 0 k.
Proof. induction k; cbn [repeat map enc]; congruence. Qed.
Lemma all_repeat : forall A (P : A -> Prop) x k, P x -> Forall P (repeat x k).
Proof. intros A P x k H. apply Forall_forall. intros y Y. apply repeat_spec in Y. now subst. Qed.

Record Same (st : fob) (wt : fow) : Prop := {
  s_check : fw_check wt = fb_check st; s_base : fw_base wt = map enc (fb_base st); s_next : fw_next wt = map enc (fb_next st); s_front : fw_front wt = fb_front st;
  s_us : fw_us wt = fb_us st; s_ut : fw_ut wt = fb_ut st; s_prev : fw_prev wt = fb_prev st; s_len : length (fb_us st) = length (fb_next st);
  b_next : Forall below (fb_next st); b_base : Forall below (fb_base st); b_prev : Forall (fun x => x < B) (fb_prev st); b_front : fb_front st < B; b_len : length (fb_check st) < B }.

Lemma link_same : forall l nx pv nx' pv', (forall i, In i l -> i + 1 < B) -> Forall below nx -> Forall (fun x => x < B) pv -> foldM link_block l (nx, pv) = Ok (nx', pv') ->
  foldM (link_block_w w) l (map enc nx, pv) = Ok (map enc nx', pv') /\ Forall below nx' /\ Forall (fun x => x < B) pv'.
Proof.
  induction l as [|i l IH]; intros nx pv nx' pv' HI HN HP H; cbn [foldM] in *; [injection H as <- <-; auto|]. inv H. destruct H as ([nx1 pv1] & E & H). unfold link_block in E. cbn [fst snd] in E.
  inv E. destruct E as (n1 & E1 & E). inv E. destruct E as (p1 & E2 & E). injection E as <- <-. assert (I := HI i (or_introl eq_refl)).
  unfold link_block_w. cbn [fst snd]. rewrite !tr_id by lia. change (lset (map enc nx) i (i + 1)) with (lset (map enc nx) i (enc (Some (i + 1)))). rewrite (set_enc _ _ _ _ E1). cbn [bind]. rewrite E2. cbn [bind].
  apply IH; auto; [intros; apply HI; right; auto|eapply set_all; [exact HN| |exact E1]; cbn; lia|eapply set_all; [exact HP| |exact E2]; cbn; lia].
Qed.
Opaque repeat.
Lemma expand_same : forall st wt st', Same st wt -> expand_block st = Ok st' -> length (fb_next st') <= B -> exists wt', expand_block_w w wt = Ok wt' /\ Same st' wt'.
Proof.
  intros st wt st' S H L. assert (G := expand_grown _ _ H). destruct S as [S1 S2 S3 S4 S5 S6 S7 S8 C1 C2 C3 C4 C5].
  unfold expand_block in H. cbv zeta in H. inv H. destruct H as (u0 & E0 & H). inv H. destruct H as ([[nx pv] front] & E & H).
  inv H. destruct H as (nx1 & E1 & H). inv H. destruct H as ([nx2 pv2] & E2 & H). inv H. destruct H as (nx3 & E3 & H). inv H. destruct H as (pv3 & E4 & H).
  assert (Q : length (fb_next st) + 256 <= B).
  { injection H as <-. cbn [fb_next] in L. apply lset_len in E1 as [E1 _]. apply link_len in E2. apply lset_len in E3 as [E3 _]. enough (length nx = length (fb_next st) + 256) by lia. destruct G as (d & G & _ & G'). cbn [fb_next fb_us] in G, G'. rewrite app_length, repeat_length in G'. lia. }
  assert (LE : length (fw_next wt ++ repeat 0 256) = length (fb_next st ++ repeat (Some 0) 256)) by (rewrite S3, !app_length, map_length, !repeat_length; reflexivity).
  assert (LB : length (fw_next wt) = length (fb_next st)) by (rewrite S3; apply map_length).
  unfold expand_block_w. cbv zeta. rewrite LE, LB, S4, S6, E0. cbn [bind]. set (e := length (fb_next st ++ repeat (Some 0) 256)) in *. assert (EE : e = length (fb_next st) + 256) by (unfold e; rewrite app_length, repeat_length; reflexivity). clearbody e.
  set (b := length (fb_next st)) in *.
  assert (NX : map enc (fb_next st ++ repeat (Some 0) 256) = fw_next wt ++ repeat 0 256) by (rewrite map_app, enc_zeros, S3; reflexivity).
  assert (BN : Forall below (fb_next st ++ repeat (Some 0) 256)) by (apply Forall_app; split; auto; apply all_repeat; cbn; lia).
  assert (BP : Forall (fun x => x < B) (fb_prev st ++ repeat 0 256)) by (apply Forall_app; split; auto; apply all_repeat; lia).
  assert (F : exists r, (if negb (fb_front st =? 0) || negb u0 then
             do ob <- lget (fw_prev wt ++ repeat 0 256) (fb_front st); do pv <- lset (fw_prev wt ++ repeat 0 256) b ob; do nx <- lset (fw_next wt ++ repeat 0 256) ob (tr b);
             do pv <- lset pv (fb_front st) (tr (e - 1)); Ok (nx, pv, fb_front st)
           else do pv <- lset (fw_prev wt ++ repeat 0 256) b (tr (e - 1)); Ok (fw_next wt ++ repeat 0 256, pv, b)) = Ok r /\ r = (map enc nx, pv, front) /\ Forall below nx /\ Forall (fun x => x < B) pv /\ front < B).
  { rewrite !tr_id by lia. rewrite S7, <- NX. destruct (_ || _).
    - inv E. destruct E as (ob & F1 & E). inv E. destruct E as (p1 & F2 & E). inv E. destruct E as (n1 & F3 & E). inv E. destruct E as (p2 & F4 & E). injection E as <- <- <-.
      rewrite F1. cbn [bind]. rewrite F2. cbn [bind]. change b with (enc (Some b)) at 1. rewrite (set_enc _ _ _ _ F3). cbn [bind]. rewrite F4. cbn [bind]. eexists. split; [reflexivity|]. split; auto.
      assert (ob < B) by exact (get_all _ _ _ _ _ BP F1). split; [eapply set_all; [exact BN| |exact F3]; cbn; lia|]. split; auto. eapply set_all; [| |exact F4]; [eapply set_all; [exact BP| |exact F2]|]; cbn; lia.
    - inv E. destruct E as (p1 & F1 & E). injection E as <- <- <-. rewrite F1. cbn [bind]. eexists. split; [reflexivity|]. split; auto. split; auto. split; [eapply set_all; [exact BP| |exact F1]; cbn; lia|lia]. }
  destruct F as (r & FE & -> & BN1 & BP1 & BF). rewrite FE. cbn [bind]. clear FE E. rewrite !tr_id by lia.
  change (b + 1) with (enc (Some (b + 1))) at 1. rewrite (set_enc _ _ _ _ E1). cbn [bind].
  destruct (link_same (seq (b + 1) 254) nx1 pv nx2 pv2) as (K & K1 & K2); auto.
  { intros i I. apply in_seq in I. lia. }
  { eapply set_all; [exact BN1| |exact E1]; cbn; lia. }
  rewrite K. cbn [bind]. change front with (enc (Some front)) at 1. rewrite (set_enc _ _ _ _ E3). cbn [bind]. rewrite E4. cbn [bind]. eexists. split; [reflexivity|]. injection H as <-.
  split; cbn [fw_check fw_base fw_next fw_front fw_us fw_ut fw_prev fb_check fb_base fb_next fb_front fb_us fb_ut fb_prev]; auto.
  - now rewrite S5.
  - destruct G as (d & G & _ & G'). cbn [fb_next fb_us] in G, G'. rewrite app_length in *. unfold b in *. lia.
  - eapply set_all; [exact K1| |exact E3]. exact BF.
  - eapply set_all; [exact K2| |exact E4]. cbn. lia.
Qed.
Transparent repeat.
Lemma some_Ok : forall x n, some_id x = Ok n -> x = Some n.
Proof. intros [x|] n H; [|discriminate]. injection H as <-. auto. Qed.
Lemma find_same : forall fuel c0 ts st wt i st' b, Same st wt -> find_loop fuel c0 ts st i = Ok (st', b) -> length (fb_next st') <= B -> exists wt', find_loop_w w fuel c0 ts wt i = Ok (wt', b) /\ Same st' wt'.
Proof.
  induction fuel as [|fuel IH]; intros c0 ts st wt i st' b S H L; cbn [find_loop] in H; [discriminate|]. cbn [find_loop_w]. cbv zeta in H |- *. inv H. destruct H as (us & E1 & H). inv H. destruct H as (ok & E2 & H).
  pose proof S as [S1 S2 S3 S4 S5 S6 S7 S8 C1 C2 C3 C4 C5]. rewrite S5, E1. cbn [bind]. rewrite S1, S6, E2. cbn [bind]. destruct ok; [injection H as <- <-; eauto|].
  inv H. destruct H as (n & E3 & H). inv H. destruct H as (n1 & E4 & H). apply some_Ok in E4. subst n. inv H. destruct H as (st1 & E5 & H). inv H. destruct H as (n2 & E6 & H). inv H. destruct H as (n3 & E7 & H). apply some_Ok in E7. subst n2.
  rewrite S3, (get_enc _ _ _ E3). cbn [bind enc]. rewrite S4. destruct (find_grown _ _ _ _ _ _ _ H) as [(d & G & _) _].
  assert (F : exists wt1, (if n1 =? fb_front st then expand_block_w w wt else Ok wt) = Ok wt1 /\ Same st1 wt1).
  { destruct (n1 =? fb_front st); [eapply expand_same; eauto; lia|injection E5 as <-; eauto]. }
  destruct F as (wt1 & F & S'). rewrite F. cbn [bind]. rewrite (s_next _ _ S'), (get_enc _ _ _ E6). cbn [bind enc]. eapply IH; eauto.
Qed.
Lemma base_same : forall fuel ts st wt st' b, Same st wt -> find_base fuel st ts = Ok (st', b) -> length (fb_next st') <= B -> exists wt', find_base_w w fuel wt ts = Ok (wt', b) /\ Same st' wt' /\ b < B.
Proof.
  intros fuel ts st wt st' b S H L. pose proof (base_grown _ _ _ _ _ H) as [_ Q]. unfold find_base in H. inv H. destruct H as (t0 & E1 & H). inv H. destruct H as (c0 & E2 & H). unfold find_base_w. rewrite E1. cbn [bind]. rewrite (s_check _ _ S), E2. cbn [bind].
  rewrite (s_front _ _ S). destruct (find_same _ _ _ _ _ _ _ _ S H L) as (wt' & F & S'). exists wt'. split; auto. split; auto. pose proof (s_len _ _ S'). lia.
Qed.
Lemma next_same : forall st wt i x st', Same st wt -> x < B -> set_next st i x = Ok st' -> exists wt', set_next_w w wt i x = Ok wt' /\ Same st' wt'.
Proof.
  intros st wt i x st' S X H. assert (G := set_next_grown _ _ _ _ H). pose proof S as [S1 S2 S3 S4 S5 S6 S7 S8 C1 C2 C3 C4 C5]. unfold set_next in H. inv H. destruct H as (n & E1 & H). inv H. destruct H as ([[nx pv] front] & E2 & H). inv H. destruct H as (ut & E3 & H). inv H. destruct H as (nx1 & E4 & H).
  unfold set_next_w. rewrite S3, (get_enc _ _ _ E1). cbn [bind]. rewrite S4, S6, S7.
  assert (F : exists r, (if enc n =? nil_id then Ok (map enc (fb_next st), fb_prev st, fb_front st) else
           let front := if fb_front st =? i then (if enc n =? fb_front st then 0 else enc n) else fb_front st in
           do p <- lget (fb_prev st) i; do nx <- lset (map enc (fb_next st)) p (enc n); do pv <- lset (fb_prev st) (enc n) p; Ok (nx, pv, front)) = Ok r /\ r = (map enc nx, pv, front) /\ Forall below nx /\ Forall (fun x => x < B) pv /\ front < B).
  { destruct n as [n|]; cbn [enc].
    - assert (N := get_all _ _ _ _ _ C1 E1). cbn in N. rewrite nil_not by auto. cbv zeta in E2 |- *. inv E2. destruct E2 as (p & F1 & E2). inv E2. destruct E2 as (n1 & F2 & E2). inv E2. destruct E2 as (p1 & F3 & E2). injection E2 as <- <- <-.
      rewrite F1. cbn [bind]. pose proof (set_enc _ _ _ _ F2) as F2'. cbn [enc] in F2'. rewrite F2'. cbn [bind]. rewrite F3. cbn [bind]. eexists. split; [reflexivity|]. split; auto. assert (P := get_all _ _ _ _ _ C3 F1). cbn in P.
      split; [eapply set_all; [exact C1| |exact F2]; exact N|]. split; [eapply set_all; [exact C3| |exact F3]; exact P|]. destruct (fb_front st =? i); [destruct (n =? fb_front st)|]; lia.
    - rewrite nil_eq. injection E2 as <- <- <-. eexists. split; [reflexivity|]. auto. }
  destruct F as (r & F & -> & K1 & K2 & K3). cbv zeta in F |- *. rewrite F. cbn [bind]. rewrite E3. cbn [bind]. change x with (enc (Some x)). rewrite (set_enc _ _ _ _ E4). cbn [bind]. eexists. split; [reflexivity|]. injection H as <-.
  split; cbn [fw_check fw_base fw_next fw_front fw_us fw_ut fw_prev fb_check fb_base fb_next fb_front fb_us fb_ut fb_prev]; auto.
  - destruct G as (d & G & _ & G'). cbn [fb_next fb_us] in G, G'. lia.
  - eapply set_all; [exact K1| |exact E4]. exact X.
Qed.
Lemma setb_same : forall st wt s b st', Same st wt -> b < B -> set_base st s b = Ok st' -> exists wt', set_base_w w wt s b = Ok wt' /\ Same st' wt'.
Proof.
  intros st wt s b st' S L H. pose proof S as [S1 S2 S3 S4 S5 S6 S7 S8 C1 C2 C3 C4 C5]. unfold set_base in H. inv H. destruct H as (ba & E & H). injection H as <-. unfold set_base_w. rewrite tr_id by lia. rewrite S2. change b with (enc (Some b)). rewrite (set_enc _ _ _ _ E). cbn [bind].
  eexists. split; [reflexivity|]. split; cbn [fw_check fw_base fw_next fw_front fw_us fw_ut fw_prev fb_check fb_base fb_next fb_front fb_us fb_ut fb_prev]; auto. eapply set_all; [exact C2| |exact E]. exact L.
Qed.
Lemma us_same : forall st wt b v st', Same st wt -> set_us st b v = Ok st' -> exists wt', set_us_w wt b v = Ok wt' /\ Same st' wt'.
Proof.
  intros st wt b v st' S H. pose proof S as [S1 S2 S3 S4 S5 S6 S7 S8 C1 C2 C3 C4 C5]. unfold set_us in H. inv H. destruct H as (us & E & H). injection H as <-. unfold set_us_w. rewrite S5, E. cbn [bind].
  eexists. split; [reflexivity|]. split; cbn [fw_check fw_base fw_next fw_front fw_us fw_ut fw_prev fb_check fb_base fb_next fb_front fb_us fb_ut fb_prev]; auto. apply lset_len in E. lia.
Qed.
Lemma transes_same : forall st wt s ts, Same st wt -> get_transes st s = Ok ts -> get_transes_w w wt s = Ok ts /\ Forall (fun t => t < B) ts.
Proof.
  intros st wt s ts S H. pose proof S as [S1 S2 S3 S4 S5 S6 S7 S8 C1 C2 C3 C4 C5]. unfold get_transes in H. inv H. destruct H as (b & E & H). unfold get_transes_w. rewrite S2, (get_enc _ _ _ E). cbn [bind]. destruct b as [b|]; cbn [enc]; [|rewrite nil_eq; injection H as <-; auto].
  assert (Bb := get_all _ _ _ _ _ C2 E). cbn in Bb. rewrite nil_not by auto. rewrite S1, S3, S6. clear E. revert H. assert (A : Forall (fun t => t < B) []) by constructor. revert A.
  match goal with |- ?P -> foldM ?f ?l ?a = ?r -> foldM ?g ?l ?a = ?r /\ ?Q => enough (G : forall ll acc, Forall (fun t => t < B) acc -> foldM f ll acc = r -> foldM g ll acc = r /\ Q) by (apply G) end. clear S.
  induction ll as [|c l IH]; intros acc A H; cbn [foldM] in *; [injection H as <-; auto|]. cbv zeta in H |- *. inv H. destruct H as (acc1 & E & H). inv E. destruct E as (n & E1 & E). inv E. destruct E as (u & E2 & E).
  rewrite (get_enc _ _ _ E1). cbn [bind]. rewrite E2. cbn [bind]. destruct u; [|injection E as <-; cbn [bind]; auto].
  destruct n as [[|n]|]; cbn [enc]; [cbn [Nat.eqb bind]; injection E as <-; auto| |discriminate E]. cbn [Nat.eqb some_id bind] in *. inv E. destruct E as (k & E3 & E). rewrite E3. cbn [bind]. injection E as <-. cbn [bind]. apply IH; auto.
  assert (N := get_all _ _ _ _ _ C1 E1). cbn in N. destruct (_ =? _)%N; auto. apply Forall_app. auto.
Qed.
Lemma move_same : forall b nb st wt t st', Same st wt -> t < B -> move_trans b nb st t = Ok st' -> exists wt', move_trans_w w b nb wt t = Ok wt' /\ Same st' wt'.
Proof.
  intros b nb st wt t st' S T H. pose proof S as [S1 S2 S3 S4 S5 S6 S7 S8 C1 C2 C3 C4 C5]. unfold move_trans in H. inv H. destruct H as (c & E1 & H). cbv zeta in H. inv H. destruct H as (nx & E2 & H). inv H. destruct H as (ut & E3 & H).
  unfold move_trans_w. rewrite S1, E1. cbn [bind]. cbv zeta. rewrite S3. change nil_id with (enc None). rewrite (set_enc _ _ _ _ E2). cbn [bind]. rewrite S6, E3. cbn [bind]. eapply next_same; [|exact T|exact H].
  split; cbn [fw_check fw_base fw_next fw_front fw_us fw_ut fw_prev fb_check fb_base fb_next fb_front fb_us fb_ut fb_prev]; auto; [apply lset_len in E2; lia|eapply set_all; [exact C1| |exact E2]; exact I].
Qed.
Lemma moves_same : forall b nb ts st wt st', Same st wt -> Forall (fun t => t < B) ts -> foldM (move_trans b nb) ts st = Ok st' -> exists wt', foldM (move_trans_w w b nb) ts wt = Ok wt' /\ Same st' wt'.
Proof.
  induction ts as [|t ts IH]; intros st wt st' S T H; cbn [foldM] in *; [injection H as <-; eauto|]. inv H. destruct H as (st1 & E & H). inversion T; subst. destruct (move_same _ _ _ _ _ _ S H2 E) as (wt1 & E' & S'). rewrite E'. cbn [bind]. eauto.
Qed.
Lemma insert_same : forall fuel st wt s n st', Same st wt -> n < B -> insert_trans fuel st s n = Ok st' -> length (fb_next st') <= B -> exists wt', insert_trans_w w fuel wt s n = Ok wt' /\ Same st' wt'.
Proof.
  intros fuel st wt s n st' S N H L. unfold insert_trans in H. inv H. destruct H as (c & E1 & H). inv H. destruct H as (b & E2 & H). unfold insert_trans_w. rewrite (s_check _ _ S), E1. cbn [bind]. rewrite (s_base _ _ S), (get_enc _ _ _ E2). cbn [bind].
  destruct b as [b|]; cbn [enc].
  - assert (Bb := get_all _ _ _ _ _ (b_base _ _ S) E2). cbn in Bb. rewrite nil_not by auto. inv H. destruct H as (u & E3 & H). rewrite (s_ut _ _ S), E3. cbn [bind]. destruct u; [|eapply next_same; eauto].
    inv H. destruct H as (ts & E4 & H). destruct (transes_same _ _ _ _ S E4) as [E4' T]. rewrite E4'. cbn [bind]. inv H. destruct H as ([st1 nb] & E5 & H). inv H. destruct H as (st2 & E6 & H). inv H. destruct H as (st3 & E7 & H). inv H. destruct H as (st4 & E8 & H). inv H. destruct H as (st5 & E9 & H).
    assert (G : grown st1 st') by (eauto 10 using grown_trans, set_us_grown, set_base_grown, moves_grown, set_next_grown). destruct G as (d & G & _).
    destruct (base_same _ _ _ _ _ _ S E5 ltac:(lia)) as (w1 & F5 & Q5 & NB). rewrite F5. cbn [bind]. destruct (us_same _ _ _ _ _ Q5 E6) as (w2 & F6 & Q6). rewrite F6. cbn [bind]. destruct (us_same _ _ _ _ _ Q6 E7) as (w3 & F7 & Q7). rewrite F7. cbn [bind].
    destruct (setb_same _ _ _ _ _ Q7 NB E8) as (w4 & F8 & Q8). rewrite F8. cbn [bind]. destruct (moves_same _ _ _ _ _ _ Q8 T E9) as (w5 & F9 & Q9). rewrite F9. cbn [bind]. eapply next_same; eauto.
  - rewrite nil_eq. inv H. destruct H as ([st1 nb] & E5 & H). inv H. destruct H as (st2 & E6 & H). inv H. destruct H as (st3 & E7 & H).
    assert (G : grown st1 st') by (eauto 10 using grown_trans, set_us_grown, set_base_grown, set_next_grown). destruct G as (d & G & _).
    destruct (base_same _ _ _ _ _ _ S E5 ltac:(lia)) as (w1 & F5 & Q5 & NB). rewrite F5. cbn [bind]. destruct (setb_same _ _ _ _ _ Q5 NB E6) as (w2 & F6 & Q6). rewrite F6. cbn [bind]. destruct (next_same _ _ _ _ _ Q6 N E7) as (w3 & F7 & Q7). rewrite F7. cbn [bind]. eapply us_same; eauto.
Qed.
Lemma check_in : forall ck i a, fo_check ck (S i) = Ok a -> i < length ck.
Proof. intros ck i a H. cbn in H. unfold lget in H. destruct (nth_error ck i) eqn:E; [|discriminate]. apply nth_error_Some. congruence. Qed.
Lemma trans_same : forall st wt s n t, Same st wt -> fo_transition st s n = Ok t -> fo_transition_w w wt s n = Ok t /\ t < B.
Proof.
  intros st wt s n t S H. unfold fo_transition in H. inv H. destruct H as (a & E1 & H). assert (L : s + 1 < B) by (rewrite Nat.add_1_r in *; apply check_in in E1; pose proof (b_len _ _ S); lia). inv H. destruct H as (c & E2 & H). unfold fo_transition_w. rewrite tr_id by lia. rewrite (s_check _ _ S), E1. cbn [bind]. rewrite E2. cbn [bind].
  destruct (_ =? _)%N; [injection H as <-; auto|]. inv H. destruct H as (b & E3 & H). rewrite (s_base _ _ S), (get_enc _ _ _ E3). cbn [bind]. destruct b as [b|]; cbn [enc]; [|rewrite nil_eq; injection H as <-; split; [auto|lia]].
  assert (Bb := get_all _ _ _ _ _ (b_base _ _ S) E3). cbn in Bb. rewrite nil_not by auto. inv H. destruct H as (u & E4 & H). rewrite (s_ut _ _ S), E4. cbn [bind]. destruct (negb u); [injection H as <-; split; [auto|lia]|].
  inv H. destruct H as (x & E5 & H). inv H. destruct H as (y & E6 & H). apply some_Ok in E6. subst x. rewrite (s_next _ _ S), (get_enc _ _ _ E5). cbn [bind enc]. assert (N := get_all _ _ _ _ _ (b_next _ _ S) E5). cbn in N.
  destruct (y =? 0); [injection H as <-; split; [auto|lia]|]. inv H. destruct H as (k & E7 & H). rewrite E7. cbn [bind]. injection H as <-. split; auto. destruct (_ =? _)%N; lia.
Qed.
Lemma walk_same : forall steps steps' fuel lrs st wt k n st' k', steps <= steps' -> Same st wt -> n < B -> fo_walk steps fuel lrs st k n = Ok (st', k') -> length (fb_next st') <= B ->
  exists wt', fo_walk_w w steps' fuel lrs wt k n = Ok (wt', k') /\ Same st' wt'.
Proof.
  induction steps as [|steps IH]; intros steps' fuel lrs st wt k n st' k' SS S N H L; cbn [fo_walk] in H; [discriminate|]. destruct steps' as [|steps']; [lia|]. cbn [fo_walk_w]. destruct (Nat.ltb_spec k n); [|injection H as <- <-; eauto].
  inv H. destruct H as (t & E1 & H). rewrite !tr_id by lia. destruct (trans_same _ _ _ _ _ S E1) as [F1 _]. rewrite F1. cbn [bind]. destruct (t =? 0); [|injection H as <- <-; eauto].
  inv H. destruct H as (st1 & E2 & H). inv H. destruct H as (k1 & E3 & H). destruct (walk_grown _ _ _ _ _ _ _ _ H) as (d & G & _). destruct (insert_same _ _ _ _ _ _ S N E2 ltac:(lia)) as (w1 & F2 & Q2). rewrite F2. cbn [bind]. rewrite E3. cbn [bind]. eapply IH; eauto. lia.
Qed.
Lemma letter_same : forall steps fuel st wt lrs i st' lrs', i + 3 <= steps -> i + 1 < B -> Same st wt -> fo_letter fuel (st, lrs) i = Ok (st', lrs') -> length (fb_next st') <= B ->
  exists wt', fo_letter_w w steps fuel (wt, lrs) i = Ok (wt', lrs') /\ Same st' wt'.
Proof.
  intros steps fuel st wt lrs i st' lrs' SS I S H L. unfold fo_letter in H. inv H. destruct H as (l1 & E1 & H). inv H. destruct H as (k & E2 & H). inv H. destruct H as ([st1 k1] & E3 & H). inv H. destruct H as (v & E4 & H). inv H. destruct H as (l2 & E5 & H). injection H as <- <-.
  unfold fo_letter_w. rewrite (tr_id (i + 1)) by lia. rewrite E1. cbn [bind]. rewrite E2. cbn [bind]. destruct (walk_same _ _ _ _ _ _ _ _ _ _ SS S I E3 L) as (w1 & F3 & Q3). rewrite F3. cbn [bind].
  assert (V : (if k1 =? i + 1 then Ok 0 else fo_transition_w w w1 (tr k1) (i + 1)) = Ok v /\ v < B).
  { destruct (k1 =? i + 1) eqn:Z; [injection E4 as <-; split; [auto|lia]|]. destruct (trans_same _ _ _ _ _ Q3 E4) as [F4 K]. split; auto. rewrite tr_id; auto.
    unfold fo_transition in E4. inv E4. destruct E4 as (a & A & _). rewrite Nat.add_1_r in A. apply check_in in A. pose proof (b_len _ _ Q3). lia. }
  destruct V as [V1 V2]. rewrite V1. cbn [bind]. rewrite tr_id by lia. rewrite E5. cbn [bind]. eauto.
Qed.
Lemma letters_same : forall steps fuel l st wt lrs st' lrs', (forall i, In i l -> i + 3 <= steps /\ i + 1 < B) -> Same st wt -> foldM (fo_letter fuel) l (st, lrs) = Ok (st', lrs') -> length (fb_next st') <= B ->
  exists wt', foldM (fo_letter_w w steps fuel) l (wt, lrs) = Ok (wt', lrs') /\ Same st' wt'.
Proof.
  induction l as [|i l IH]; intros st wt lrs st' lrs' I S H L; cbn [foldM] in *; [injection H as <- <-; eauto|]. inv H. destruct H as ([st1 lrs1] & E & H). destruct (letters_grown _ _ _ _ _ _ H) as (d & G & _). destruct (I i (or_introl eq_refl)) as [I1 I2].
  destruct (letter_same _ _ _ _ _ _ _ _ I1 I2 S E ltac:(lia)) as (w1 & F & Q). rewrite F. cbn [bind]. eapply IH; eauto. intros; apply I; now right.
Qed.
Lemma grow_same : forall steps st wt st', Same st wt -> fo_grow steps st = Ok st' -> length (fb_next st') <= B -> exists wt', fo_grow_w w steps wt = Ok wt' /\ Same st' wt'.
Proof.
  induction steps as [|steps IH]; intros st wt st' S H L; cbn [fo_grow fo_grow_w] in *; rewrite (s_check _ _ S), (s_next _ _ S), map_length; destruct (_ <? _); try discriminate; try (injection H as <-; eauto).
  inv H. destruct H as (st1 & E & H). destruct (grow_grown _ _ _ H) as (d & G & _). destruct (expand_same _ _ _ S E ltac:(lia)) as (w1 & F & Q). rewrite F. cbn [bind]. eauto.
Qed.
Lemma enc_clear : forall nx ut, map enc (map (fun p : option nat * bool => if snd p then fst p else Some 0) (combine nx ut)) = map (fun p : nat * bool => if snd p then fst p else 0) (combine (map enc nx) ut).
Proof. induction nx as [|n nx IH]; intros [|u ut]; cbn [combine map fst snd]; auto. rewrite IH. destruct u; reflexivity. Qed.
Definition Enc (o : foracle) (o' : foracle_w) : Prop := fw_chk o' = fo_chk o /\ fw_bs o' = map enc (fo_base o) /\ fw_nx o' = map enc (fo_next o) /\ Forall below (fo_base o) /\ Forall below (fo_next o).
Lemma build_same : forall steps fuel text o, length text + 2 <= steps -> length text < B -> length (fo_next o) <= B -> fo_build fuel text = Ok o -> exists o', fo_build_w w steps fuel text = Ok o' /\ Enc o o'.
Proof.
  intros steps fuel text o HS HT L H. unfold fo_build in H. inv H. destruct H as (st1 & E1 & H). inv H. destruct H as (st2 & E2 & H). inv H. destruct H as ([st3 lrs] & E3 & H). cbn [fst] in H.
  assert (G : grown (fo_init text) st3) by (eapply grown_trans; [eapply grow_grown; exact E1|]; eapply grown_trans; [eapply set_next_grown; exact E2|eapply letters_grown; exact E3]). destruct G as (d & G1 & G2 & _). cbn in G1, G2.
  assert (L3 : length (fb_next st3) <= B). { injection H as <-. cbn [fo_next] in L. unfold fo_clear in L. rewrite map_length, combine_length in L. lia. }
  destruct (letters_grown _ _ _ _ _ _ E3) as (d3 & G3 & _). destruct (set_next_grown _ _ _ _ E2) as (d2 & G4 & _).
  assert (S0 : Same (fo_init text) (fo_init_w w text)).
  { split; cbn; auto; [|apply all_repeat; exact I|lia]. clear. induction (length text + 1); cbn [repeat map enc]; congruence. }
  assert (L1 : length (fb_next st1) <= B) by lia. assert (B0 : 0 < B) by lia. destruct (grow_same _ _ _ _ S0 E1 L1) as (w1 & F1 & Q1). destruct (next_same _ _ _ _ _ Q1 B0 E2) as (w2 & F2 & Q2).
  assert (I3 : forall i, In i (seq 0 (length text)) -> i + 3 <= steps /\ i + 1 < B) by (intros i I; apply in_seq in I; lia). destruct (letters_same steps fuel _ _ _ _ _ _ I3 Q2 E3 L3) as (w3 & F3 & Q3). unfold fo_build_w. rewrite F1. cbn [bind]. rewrite F2. cbn [bind]. rewrite F3. cbn [bind fst]. eexists. split; [reflexivity|]. injection H as <-.
  unfold Enc. cbn. rewrite (s_base _ _ Q3). split; auto. split; auto. split; [unfold fo_clear_w, fo_clear; rewrite (s_next _ _ Q3), (s_ut _ _ Q3), enc_clear; reflexivity|]. split; [apply (b_base _ _ Q3)|].
  unfold fo_clear. apply Forall_forall. intros x X. apply in_map_iff in X as ([n u] & <- & X). cbn [fst snd]. apply in_combine_l in X. destruct u; [exact (proj1 (Forall_forall _ _) (b_next _ _ Q3) _ X)|cbn; lia].
Qed.

Lemma image_same : forall o o' beyond s c, Enc o o' -> Forall (fun x => x <> None) (fo_next o) -> fo_image_w w beyond o' s c = fo_image beyond o s c.
Proof.
  intros o o' beyond s c (E1 & E2 & E3 & B1 & B2) HS. unfold fo_image, fo_image_w. rewrite E1. destruct (fo_check (fo_chk o ++ beyond) (s + 1)) as [a| | |]; cbn [bind]; auto. destruct (_ =? _)%N; [auto|]. rewrite E2.
  assert (G : forall l i, lget (map enc l) i = rmap enc (lget l i)) by (intros l i; unfold lget; rewrite nth_error_map; destruct (nth_error l i); reflexivity). rewrite G.
  destruct (lget (fo_base o) s) as [b| | |] eqn:F2; cbn [bind rmap]; auto. 
  destruct b as [b|]; cbn [enc]; [|rewrite nil_eq; auto]. assert (Bb := get_all _ _ _ _ _ B1 F2). cbn in Bb. rewrite nil_not by auto. rewrite E3, G. destruct (lget (fo_next o) (slot b c)) as [x| | |] eqn:F3; cbn [bind rmap]; auto.
  assert (X := get_all _ _ _ _ _ HS F3). destruct x as [x|]; [|congruence]. reflexivity.
Qed.
Lemma accept_from_same : forall o o' beyond q s, Enc o o' -> Forall (fun x => x <> None) (fo_next o) -> fo_accept_from_w w beyond o' s q = fo_accept_from beyond o s q.
Proof.
  induction q as [|c q IH]; intros s E H; cbn [fo_accept_from fo_accept_from_w] in *; auto. rewrite (image_same _ _ _ _ _ E H). destruct (fo_image beyond o s c) as [[x|]| | |]; cbn [bind]; auto.
Qed.
End S.

Lemma build_some : forall fuel text o, Forall (fun c => (0 < c < 256)%N) text -> fo_build fuel text = Ok o -> Forall (fun x => x <> None) (fo_next o).
Proof.
  intros fuel text o Hz Eb. destruct (build_blocks text (nonzero_nth _ Hz) fuel o Eb) as (q0 & log & lrs & st & q & R & _ & _ & A & En & _). destruct (ar_free _ _ _ _ _ A) as [Ln _ _ Lu _ _ _ _ _].
  apply Forall_forall. intros x I. rewrite En in I. apply (In_nth _ _ (Some 0)) in I as (i & Li & <-). assert (i < 256 * q) by (unfold fo_clear in Li; rewrite map_length, combine_length in Li; lia).
  rewrite (clear_nth text (nonzero_nth _ Hz) st q R log i A) by auto. destruct (ut_at st i) eqn:U; [|discriminate]. destruct (ar_own _ _ _ _ _ A _ U) as [->|(s & t & b & J & Eb' & ->)].
  - rewrite (proj2 (ar_0 _ _ _ _ _ A)). discriminate.
  - destruct (ar_edge _ _ _ _ _ A s t J) as (_ & _ & b' & Eb2 & _ & Nx). rewrite Eb' in Eb2. injection Eb2 as <-. rewrite Nx. discriminate.
Qed.
Theorem short_same : forall w steps fuel text o, Forall (fun c => (0 < c < 256)%N) text -> (257 * N.of_nat (length text) < 2 ^ w)%N -> length text + 2 <= steps -> fo_build fuel text = Ok o ->
  exists o', fo_build_w w steps fuel text = Ok o' /\ length (fw_nx o') = length (fo_next o) /\ forall beyond q, fo_accept_w w beyond o' q = fo_accept beyond o q.
Proof.
  intros w steps fuel text o Hz L HS H. destruct (oracle_size fuel text o Hz H) as (E & LL & _ & _ & _ & L1 & _ & _ & q & L2 & L3).
  assert (Hm : 1 <= length text) by (destruct text; [rewrite build_empty in H; discriminate|cbn; lia]).
  assert (D : 256 * ((length text + 255) / 256) <= length text + 255) by (apply Nat.mul_div_le; lia).
  destruct (build_same w (257 * length text) ltac:(lia) steps fuel text o HS ltac:(lia) ltac:(lia) H) as (o' & F & EE).
  exists o'. split; auto. split; [destruct EE as (_ & _ & E3 & _); rewrite E3; apply map_length|]. intros beyond s. unfold fo_accept_w, fo_accept. eapply accept_from_same; eauto using build_some.
  lia.
Qed.
Theorem short_oracle : forall w steps fuel text o, Forall (fun c => (0 < c < 256)%N) text -> (257 * N.of_nat (length text) < 2 ^ w)%N -> length text + 2 <= steps -> fo_build fuel text = Ok o ->
  exists o' E, fo_build_w w steps fuel text = Ok o' /\ factor_oracle text E /\ forall q, bytes_below 256 q ->
    (fo_accept_w w [] o' q = Ok true <-> exists s, run E 0 q s) /\
    (fo_accept_w w [] o' q = UB <-> exists v c x, q = v ++ c :: x /\ run E 0 v (length text)) /\
    (fo_accept_w w [] o' q = Ok false <-> ~ (exists s, run E 0 q s) /\ ~ exists v c x, q = v ++ c :: x /\ run E 0 v (length text)).
Proof.
  intros w steps fuel text o Hz L HS H. destruct (short_same w steps fuel text o Hz L HS H) as (o' & F & _ & A). destruct (oracle_exact fuel text o Hz H) as (E & E1 & E2). exists o', E. split; auto. split; auto. intros q Q. rewrite A. auto.
Qed.
