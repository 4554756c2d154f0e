(** FactorOracle with ids of w bits: short texts as with unbounded ids, texts of 2^w letters never get finished. *)
From Coq Require Import List NArith ZArith Arith Bool Lia.
From Verif Require Import Base FoModel FoWidthModel.
Import ListNotations.
Local Open Scope nat_scope.

Section S.
Variable w : N.
Notation tr := (tr w).
Notation nil_id := (nil_id w).
Ltac inv H := apply bind_Ok_inv in H.
Lemma lset_len : forall A (l : list A) i x l', lset l i x = Ok l' -> length l' = length l /\ i < length l /\ l' = upd l i x.
Proof. intros A l i x l' H. unfold lset in H. destruct (Nat.ltb_spec i (length l)); [|discriminate]. injection H as <-. rewrite upd_length. auto. Qed.

(** ** texts of 2^w letters *)
Lemma expand_check : forall st st', expand_block_w w st = Ok st' -> fw_check st' = fw_check st.
Proof.
  intros st st' H. unfold expand_block_w in H. cbv zeta in H. inv H. destruct H as (u0 & _ & H). inv H. destruct H as ([[nx pv] front] & _ & H).
  inv H. destruct H as (nx1 & _ & H). inv H. destruct H as ([nx2 pv2] & _ & H). inv H. destruct H as (nx3 & _ & H). inv H. destruct H as (pv3 & _ & H). injection H as <-. reflexivity.
Qed.
Lemma find_check : forall fuel c0 ts st i st' b, find_loop_w w fuel c0 ts st i = Ok (st', b) -> fw_check st' = fw_check st.
Proof.
  induction fuel as [|fuel IH]; intros c0 ts st i st' b H; cbn [find_loop_w] in H; [discriminate|]. cbv zeta in H. inv H. destruct H as (us & _ & H). inv H. destruct H as (ok & _ & H).
  destruct ok; [injection H as <- _; reflexivity|]. inv H. destruct H as (n & _ & H). inv H. destruct H as (st1 & E & H). inv H. destruct H as (n1 & _ & H). apply IH in H. rewrite H.
  destruct (n =? fw_front st); [eapply expand_check; eauto|injection E as <-; reflexivity].
Qed.
Lemma base_check : forall fuel st ts st' b, find_base_w w fuel st ts = Ok (st', b) -> fw_check st' = fw_check st.
Proof. intros fuel st ts st' b H. unfold find_base_w in H. inv H. destruct H as (t0 & _ & H). inv H. destruct H as (c0 & _ & H). eapply find_check; eauto. Qed.
Lemma set_next_check : forall st i x st', set_next_w w st i x = Ok st' -> fw_check st' = fw_check st.
Proof.
  intros st i x st' H. unfold set_next_w in H. inv H. destruct H as (n & _ & H). inv H. destruct H as ([[nx pv] front] & _ & H). inv H. destruct H as (ut & _ & H). inv H. destruct H as (nx1 & _ & H). injection H as <-. reflexivity.
Qed.
Lemma set_base_check : forall st i x st', set_base_w w st i x = Ok st' -> fw_check st' = fw_check st.
Proof. intros st i x st' H. unfold set_base_w in H. inv H. destruct H as (n & _ & H). injection H as <-. reflexivity. Qed.
Lemma set_us_check : forall st i x st', set_us_w st i x = Ok st' -> fw_check st' = fw_check st.
Proof. intros st i x st' H. unfold set_us_w in H. inv H. destruct H as (n & _ & H). injection H as <-. reflexivity. Qed.
Lemma move_check : forall b nb st t st', move_trans_w w b nb st t = Ok st' -> fw_check st' = fw_check st.
Proof. intros b nb st t st' H. unfold move_trans_w in H. inv H. destruct H as (c & _ & H). cbv zeta in H. inv H. destruct H as (nx & _ & H). inv H. destruct H as (ut & _ & H). apply set_next_check in H. exact H. Qed.
Lemma moves_check : forall b nb ts st st', foldM (move_trans_w w b nb) ts st = Ok st' -> fw_check st' = fw_check st.
Proof. induction ts as [|t ts IH]; intros st st' H; cbn [foldM] in H; [injection H as <-; reflexivity|]. inv H. destruct H as (st1 & E & H). apply IH in H. rewrite H. eapply move_check; eauto. Qed.
Lemma insert_check : forall fuel st s n st', insert_trans_w w fuel st s n = Ok st' -> fw_check st' = fw_check st.
Proof.
  intros fuel st s n st' H. unfold insert_trans_w in H. inv H. destruct H as (c & _ & H). inv H. destruct H as (b & _ & H). destruct (b =? nil_id).
  - inv H. destruct H as ([st1 nb] & E & H). inv H. destruct H as (st2 & E2 & H). inv H. destruct H as (st3 & E3 & H). apply set_us_check in H. apply set_next_check in E3. apply set_base_check in E2. apply base_check in E. congruence.
  - inv H. destruct H as (u & _ & H). destruct u; [|eapply set_next_check; eauto]. inv H. destruct H as (ts & _ & H). inv H. destruct H as ([st1 nb] & E & H). inv H. destruct H as (st2 & E2 & H). inv H. destruct H as (st3 & E3 & H).
    inv H. destruct H as (st4 & E4 & H). inv H. destruct H as (st5 & E5 & H). apply set_next_check in H. apply moves_check in E5. apply set_base_check in E4. apply set_us_check in E3. apply set_us_check in E2. apply base_check in E. congruence.
Qed.
Lemma walk_check : forall steps fuel lrs st k n st' k', fo_walk_w w steps fuel lrs st k n = Ok (st', k') -> fw_check st' = fw_check st.
Proof.
  induction steps as [|steps IH]; intros fuel lrs st k n st' k' H; cbn [fo_walk_w] in H; [discriminate|]. destruct (k <? n); [|injection H as <- _; reflexivity]. inv H. destruct H as (t & _ & H).
  destruct (t =? 0); [|injection H as <- _; reflexivity]. inv H. destruct H as (st1 & E & H). inv H. destruct H as (k1 & _ & H). apply IH in H. apply insert_check in E. congruence.
Qed.
Lemma grow_check : forall steps st st', fo_grow_w w steps st = Ok st' -> fw_check st' = fw_check st.
Proof.
  induction steps as [|steps IH]; intros st st' H; cbn [fo_grow_w] in H; destruct (_ <? _); try discriminate; try (injection H as <-; reflexivity).
  inv H. destruct H as (st1 & E & H). apply IH in H. apply expand_check in E. congruence.
Qed.
Definition ids (lrs : list nat) : Prop := Forall (fun x => (N.of_nat x < 2 ^ w)%N) lrs.
Lemma tr_lt : forall x, (N.of_nat (tr x) < 2 ^ w)%N.
Proof. intros x. unfold FoWidthModel.tr. rewrite N2Nat.id. apply N.mod_upper_bound. apply N.pow_nonzero. discriminate. Qed.
Lemma ids_set : forall lrs i x lrs', ids lrs -> lset lrs i (tr x) = Ok lrs' -> ids lrs'.
Proof.
  intros lrs i x lrs' H E. apply lset_len in E as (_ & _ & ->). unfold ids in *. revert i. induction H as [|y l P Q IH]; intros [|i]; cbn [upd]; constructor; auto; apply tr_lt.
Qed.
Lemma letter_inv : forall steps fuel st lrs i st' lrs', fo_letter_w w steps fuel (st, lrs) i = Ok (st', lrs') -> ids lrs -> fw_check st' = fw_check st /\ ids lrs'.
Proof.
  intros steps fuel st lrs i st' lrs' H K. unfold fo_letter_w in H. inv H. destruct H as (l1 & E1 & H). inv H. destruct H as (k & _ & H). inv H. destruct H as ([st1 k1] & E2 & H). inv H. destruct H as (v & _ & H).
  inv H. destruct H as (l2 & E3 & H). injection H as <- <-. apply walk_check in E2. split; auto. eapply ids_set; [|exact E3]. eapply ids_set; [|exact E1]. exact K.
Qed.
Lemma letters_inv : forall steps fuel l st lrs st' lrs', foldM (fo_letter_w w steps fuel) l (st, lrs) = Ok (st', lrs') -> ids lrs -> fw_check st' = fw_check st /\ ids lrs'.
Proof.
  induction l as [|i l IH]; intros st lrs st' lrs' H K; cbn [foldM] in H; [injection H as <- <-; auto|]. inv H. destruct H as ([st1 lrs1] & E & H). apply letter_inv in E as [E1 E2]; auto.
  apply IH in H as [H1 H2]; auto. split; auto. congruence.
Qed.
Lemma zero_trans : forall st s t, Forall (fun c => (0 < c)%N) (fw_check st) -> fo_transition_w w st s 0 = Ok t -> t = 0.
Proof.
  intros st s t P H. unfold fo_transition_w in H. inv H. destruct H as (a & EA & H). inv H. destruct H as (c & EC & H). injection EC as <-.
  assert (NZ : forall x k, fo_check (fw_check st) x = Ok k -> k = 0%N -> x = 0).
  { intros [|x] k E Z; auto. cbn [fo_check] in E. unfold lget in E. destruct (nth_error (fw_check st) x) as [y|] eqn:F; [|discriminate]. injection E as ->. apply nth_error_In in F. apply (proj1 (Forall_forall _ _) P) in F. lia. }
  destruct (N.eqb_spec a 0) as [Z|Z]; [injection H as <-; eapply NZ; eauto|]. inv H. destruct H as (b & _ & H). destruct (b =? nil_id); [injection H as <-; auto|]. inv H. destruct H as (u & _ & H).
  destruct (negb u); [injection H as <-; auto|]. inv H. destruct H as (x & _ & H). destruct (Nat.eqb_spec x 0); [injection H as <-; auto|]. inv H. destruct H as (k & E & H).
  destruct (N.eqb_spec k 0) as [Y|]; [|injection H as <-; auto]. exfalso. apply n. eapply NZ; eauto.
Qed.
Lemma walk_endless : forall steps fuel lrs st k n r, (N.of_nat n = 2 ^ w)%N -> ids lrs -> (N.of_nat k < 2 ^ w)%N -> Forall (fun c => (0 < c)%N) (fw_check st) -> fo_walk_w w steps fuel lrs st k n <> Ok r.
Proof.
  induction steps as [|steps IH]; intros fuel lrs st k n r E L K P H; cbn [fo_walk_w] in H; [discriminate|]. destruct (Nat.ltb_spec k n); [|lia]. inv H. destruct H as (t & T & H).
  assert (Z : tr n = 0) by (unfold FoWidthModel.tr; rewrite E, N.mod_same by (apply N.pow_nonzero; discriminate); reflexivity). rewrite Z in *. apply zero_trans in T; auto. subst t. cbn [Nat.eqb] in H.
  inv H. destruct H as (st1 & E1 & H). inv H. destruct H as (k1 & E2 & H). apply insert_check in E1. eapply IH; [exact E|exact L| |rewrite E1; exact P|exact H].
  unfold lget in E2. destruct (nth_error lrs k) as [y|] eqn:F; [|discriminate]. injection E2 as <-. apply nth_error_In in F. apply (proj1 (Forall_forall _ _) L) in F. exact F.
Qed.
Lemma long_endless : forall steps fuel text o, Forall (fun c => (0 < c)%N) text -> (2 ^ w <= N.of_nat (length text))%N -> fo_build_w w steps fuel text <> Ok o.
Proof.
  intros steps fuel text o P L H. unfold fo_build_w in H. inv H. destruct H as (st & E1 & H). inv H. destruct H as (st1 & E2 & H). inv H. destruct H as (r & E3 & _).
  apply grow_check in E1. apply set_next_check in E2. cbn [fo_init_w fw_check] in E1.
  assert (W : (0 < 2 ^ w)%N) by (apply N.neq_0_lt_0, N.pow_nonzero; discriminate).
  set (i0 := N.to_nat (2 ^ w - 1)). assert (I : N.of_nat (i0 + 1) = (2 ^ w)%N) by (unfold i0; lia).
  replace (length text) with (i0 + S (length text - S i0)) in E3 at 1 by lia. rewrite seq_app, foldM_app in E3. inv E3. destruct E3 as ([st2 lrs2] & E3 & E4). cbn [seq foldM plus] in E4. inv E4. destruct E4 as ([st3 lrs3] & E4 & _).
  assert (Z : ids (repeat 0 (length text + 1))) by (apply Forall_forall; intros x X; apply repeat_spec in X; subst; exact W).
  destruct (letters_inv _ _ _ _ _ _ _ E3 Z) as [C2 L2]. unfold fo_letter_w in E4. inv E4. destruct E4 as (l1 & F1 & E4). inv E4. destruct E4 as (k & F2 & E4). inv E4. destruct E4 as ([st4 k4] & F3 & _).
  assert (L1 : ids l1) by (eapply ids_set; eauto). revert F3. apply walk_endless; auto; [|rewrite C2, E2, E1; exact P].
  unfold lget in F2. destruct (nth_error l1 i0) as [y|] eqn:F; [|discriminate]. injection F2 as <-. apply nth_error_In in F. apply (proj1 (Forall_forall _ _) L1) in F. exact F.
Qed.
End S.
