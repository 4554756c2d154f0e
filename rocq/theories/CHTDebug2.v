(** Continuation of CHTDebug.v: growth of the table and histories. *)
From Coq Require Import List NArith ZArith Arith Bool Lia.
From Verif Require Import Base Spec Spec4 Spec8 Spec11 BitUtilModel BitUtilProof FitVectorModel HashModel HashProof CHTWord CHTRun CDRWProof FoDebugModel CHTModel CHTDebugModel CHTDebug.
Import ListNotations.
Local Open Scope nat_scope.
Ltac Zify.zify_post_hook ::= idtac.

Lemma pow2_table : forallb (fun b => (popcnt64 (2 ^ N.of_nat b) =? 1)%N && (ctz64 (2 ^ N.of_nat b) =? N.of_nat b)%N) (seq 0 64) = true.
Proof. vm_compute. reflexivity. Qed.
Lemma pow2_facts : forall b, b < 64 -> popcnt64 (N.of_nat (2 ^ b)) = 1%N /\ N.to_nat (ctz64 (N.of_nat (2 ^ b))) = b.
Proof.
  intros b H. pose proof (proj1 (forallb_forall _ _) pow2_table b ltac:(apply in_seq; lia)) as E. cbv beta in E. apply andb_true_iff in E as (A & B).
  apply N.eqb_eq in A, B. rewrite pow_of_nat. split; auto. rewrite B. lia.
Qed.

Lemma one_elem : forall A (f : A -> bool) l, N.of_nat (length (filter f l)) = 1%N -> exists b, In b l /\ f b = true /\ forall x, In x l -> f x = true -> x = b.
Proof.
  intros A f l H. assert (L : length (filter f l) = 1) by lia. destruct (filter f l) as [|b [|c k]] eqn:E; cbn [length] in L; try lia.
  assert (Hb : In b (filter f l)) by (rewrite E; left; reflexivity). apply filter_In in Hb as (I & T). exists b. split; [exact I|]. split; [exact T|].
  intros x Ix Tx. assert (Hx : In x (filter f l)) by (apply filter_In; split; assumption). rewrite E in Hx. destruct Hx as [Hx|[]]. symmetry. exact Hx.
Qed.
Lemma one_bit_gen : forall w x, (x < 2 ^ N.of_nat w)%N -> N.of_nat (ones_below w x) = 1%N -> exists b, b < w /\ x = (2 ^ N.of_nat b)%N.
Proof.
  intros w x Hx H. unfold ones_below in H. apply one_elem in H as (b & I & T & U). apply in_seq in I.
  exists b. split; [lia|]. apply N.bits_inj. intros i. rewrite N.pow2_bits_eqb. destruct (N.eqb_spec (N.of_nat b) i) as [<-|D]; [exact T|].
  destruct (N.testbit x i) eqn:Ti; auto. exfalso. destruct (N.ltb_spec i (N.of_nat w)) as [L|L].
  - apply D. rewrite <- (U (N.to_nat i)); [apply N2Nat.id|apply in_seq; lia|]. rewrite N2Nat.id. exact Ti.
  - rewrite (proj1 (bits_small x (N.of_nat w)) Hx) in Ti by lia. discriminate.
Qed.
Lemma one_bit : forall x, (x < 2 ^ 64)%N -> popcnt64 x = 1%N -> exists b, b < 64 /\ x = (2 ^ N.of_nat b)%N.
Proof. intros x Hx H. rewrite popcnt64_spec in H by exact Hx. apply (one_bit_gen 64); [exact Hx|exact H]. Qed.

Section Debug.
Variables (VB L kb VW : nat).
Hypothesis HVB : VB = 0 \/ VB = VW.
Hypothesis Hkb : kb <= 60.
Hypothesis HVW : VW <= 64.
Notation SZ := (Sized kb VW).

Definition started (b : nat) : res cht :=
  if VB =? 0 then cht_set_value_width VB (cht_make VB L kb (2 ^ b)) VW else Ok (cht_make VB L kb (2 ^ b)).
Lemma fv_sized_fields : forall w n, fv_width (fv_sized w n) = w /\ fv_size (fv_sized w n) = n.
Proof. intros. split; reflexivity. Qed.
Lemma start_eq : forall b, b < 64 ->
  (do t <- cht_make_d VB L kb (2 ^ b); if VB =? 0 then cht_set_value_width_d VB t VW else Ok t) = started b /\ exists t, started b = Ok t /\ SZ t /\ ch_bucket t = 2 ^ b.
Proof.
  intros b Hb. destruct (pow2_facts b Hb) as (P & C). unfold cht_make_d, started. cbv zeta. rewrite C, P. unfold fv_sized_d, kFlagBits.
  assert (A1 : (VB <=? 64) = true) by (apply Nat.leb_le; lia). assert (A2 : (kb - b + 4 <=? 64) = true) by (apply Nat.leb_le; lia). rewrite A1, A2. change (1 =? 1)%N with true. cbn [assert_that bind].
  assert (M : cht_make VB L kb (2 ^ b) = CHT kb (2 ^ b) b (2 ^ b * L / 100) (2 ^ b * (L - 1) / 400 + 1) (fv_sized (kb - b + 4) (2 ^ b)) (fv_sized VB (2 ^ b)) (kb - b) 0 0).
  { unfold cht_make. rewrite C. reflexivity. }
  rewrite <- M. assert (E : ch_bucket_bits (cht_make VB L kb (2 ^ b)) = b) by (rewrite M; reflexivity).
  destruct (Nat.eqb_spec VB 0) as [Z|Z].
  - unfold cht_set_value_width_d, cht_set_value_width, fv_sized_d. assert (A3 : (VW <=? 64) = true) by (apply Nat.leb_le; lia). rewrite A3.
    assert (A4 : negb (VB =? 0) || negb (ch_size (cht_make VB L kb (2 ^ b)) =? 0) = false) by (rewrite M, Z; reflexivity). rewrite A4. cbn [bind assert_that]. split; [reflexivity|].
    eexists. split; [reflexivity|]. rewrite M. split; [|reflexivity]. unfold Sized. cbn [ch_key_bits ch_bucket ch_bucket_bits ch_arr ch_values]. intuition.
  - split; [reflexivity|]. eexists. split; [reflexivity|]. rewrite M. split; [|reflexivity]. unfold Sized. cbn [ch_key_bits ch_bucket ch_bucket_bits ch_arr ch_values]. intuition.
Qed.

Lemma skip_eq : forall fuel t i, SZ t -> i < ch_bucket t -> skip_to_cluster_d fuel t i = skip_to_cluster fuel t i /\ forall r, skip_to_cluster fuel t i = Ok r -> r < ch_bucket t.
Proof.
  induction fuel as [|fuel IH]; intros t i H Hi; cbn [skip_to_cluster skip_to_cluster_d]; [split; [reflexivity|discriminate]|].
  erewrite arr_get by eauto. destruct (fv_get (ch_arr t) i) as [w| | |]; cbn [bind]; try (split; [reflexivity|discriminate]).
  destruct (is_occupied w && negb (is_shifted w)); [split; [reflexivity|]; intros r E; apply inj_ok in E; subst r; exact Hi|].
  apply IH; auto. eapply succ_in; eauto.
Qed.

Section Set_.
Variables (setd set : cht -> N -> N -> res cht).
Hypothesis Hset : forall t k v, SZ t -> (k < 2 ^ N.of_nat kb)%N -> (v < 2 ^ N.of_nat VW)%N -> agrD (setd t k v) (set t k v) /\ forall t', set t k v = Ok t' -> SZ t'.

Lemma move_cluster_agr : forall fuel t next i cnt qs f, SZ t -> SZ next -> i < ch_bucket t ->
  agrD (move_cluster_d setd fuel t next i cnt qs f) (move_cluster set fuel t next i cnt qs f) /\
  forall n' i' c', move_cluster set fuel t next i cnt qs f = Ok (n', i', c') -> SZ n' /\ i' < ch_bucket t.
Proof.
  induction fuel as [|fuel IH]; intros t next i cnt qs f H Hn Hi; cbn [move_cluster move_cluster_d]; [split; [apply agr_eq; reflexivity|discriminate]|].
  erewrite arr_get by eauto. destruct (fv_get (ch_arr t) i) as [w| | |]; cbn [bind]; try (split; [apply agr_eq; reflexivity|discriminate]).
  set (qs1 := if is_occupied w then qs ++ [i] else qs).
  assert (P : forall A (k kd : list nat * option nat -> res A) (Q : A -> Prop), (forall x, agrD (kd x) (k x) /\ forall r, k x = Ok r -> Q r) ->
    agrD (do qf <- (if is_continuation w then Ok (qs1, f) else match qs1 with [] => Throw | x :: q => Ok (q, Some x) end); kd qf)
         (do qf <- (if is_continuation w then Ok (qs1, f) else match qs1 with [] => UB | x :: q => Ok (q, Some x) end); k qf) /\
    forall r, (do qf <- (if is_continuation w then Ok (qs1, f) else match qs1 with [] => UB | x :: q => Ok (q, Some x) end); k qf) = Ok r -> Q r).
  { intros A k kd Q F. destruct (is_continuation w); [apply F|]. destruct qs1 as [|x q]; cbn [bind]; [split; [left; reflexivity|discriminate]|apply F]. }
  enough (G : agrD (do qf <- (if is_continuation w then Ok (qs1, f) else match qs1 with [] => Throw | x :: q => Ok (q, Some x) end);
     let '(qs0, f0) := qf in
      do next <- (if is_deleted w then Ok next else match f0 with None => UB | Some f => do q <- quotient t w; do x <- shl64 q (N.of_nat (ch_bucket_bits t));
           do k <- sm_ihash (N.of_nat (ch_key_bits t)) (N.lor x (N.of_nat f)); do v <- fv_get_d (ch_values t) i; setd next k v end);
      do w <- fv_get_d (ch_arr t) (cht_succ t i);
      if is_shifted w then move_cluster_d setd fuel t next (cht_succ t i) (S cnt) qs0 f0 else Ok (next, cht_succ t i, S cnt))
     (do qf <- (if is_continuation w then Ok (qs1, f) else match qs1 with [] => UB | x :: q => Ok (q, Some x) end);
     let '(qs0, f0) := qf in
      do next <- (if is_deleted w then Ok next else match f0 with None => UB | Some f => do q <- quotient t w; do x <- shl64 q (N.of_nat (ch_bucket_bits t));
           do k <- sm_ihash (N.of_nat (ch_key_bits t)) (N.lor x (N.of_nat f)); do v <- fv_get (ch_values t) i; set next k v end);
      do w <- fv_get (ch_arr t) (cht_succ t i);
      if is_shifted w then move_cluster set fuel t next (cht_succ t i) (S cnt) qs0 f0 else Ok (next, cht_succ t i, S cnt)) /\
    forall r, (do qf <- (if is_continuation w then Ok (qs1, f) else match qs1 with [] => UB | x :: q => Ok (q, Some x) end);
     let '(qs0, f0) := qf in
      do next <- (if is_deleted w then Ok next else match f0 with None => UB | Some f => do q <- quotient t w; do x <- shl64 q (N.of_nat (ch_bucket_bits t));
           do k <- sm_ihash (N.of_nat (ch_key_bits t)) (N.lor x (N.of_nat f)); do v <- fv_get (ch_values t) i; set next k v end);
      do w <- fv_get (ch_arr t) (cht_succ t i);
      if is_shifted w then move_cluster set fuel t next (cht_succ t i) (S cnt) qs0 f0 else Ok (next, cht_succ t i, S cnt)) = Ok r -> SZ (fst (fst r)) /\ snd (fst r) < ch_bucket t).
  { destruct G as (G1 & G2). split; [exact G1|]. intros n' i' c' E. exact (G2 _ E). }
  apply P. clear P. intros (qs0, f0).
  assert (P : agrD (if is_deleted w then Ok next else match f0 with None => UB | Some f => do q <- quotient t w; do x <- shl64 q (N.of_nat (ch_bucket_bits t));
           do k <- sm_ihash (N.of_nat (ch_key_bits t)) (N.lor x (N.of_nat f)); do v <- fv_get_d (ch_values t) i; setd next k v end)
        (if is_deleted w then Ok next else match f0 with None => UB | Some f => do q <- quotient t w; do x <- shl64 q (N.of_nat (ch_bucket_bits t));
           do k <- sm_ihash (N.of_nat (ch_key_bits t)) (N.lor x (N.of_nat f)); do v <- fv_get (ch_values t) i; set next k v end) /\
     forall n', (if is_deleted w then Ok next else match f0 with None => UB | Some f => do q <- quotient t w; do x <- shl64 q (N.of_nat (ch_bucket_bits t));
           do k <- sm_ihash (N.of_nat (ch_key_bits t)) (N.lor x (N.of_nat f)); do v <- fv_get (ch_values t) i; set next k v end) = Ok n' -> SZ n').
  { destruct (is_deleted w); [split; [apply agr_eq; reflexivity|]; intros n' E; apply inj_ok in E; subst n'; exact Hn|].
    destruct f0 as [f0|]; [|split; [apply agr_eq; reflexivity|discriminate]].
    destruct (quotient t w) as [q| | |]; cbn [bind]; try (split; [apply agr_eq; reflexivity|discriminate]).
    destruct (shl64 q _) as [x| | |]; cbn [bind]; try (split; [apply agr_eq; reflexivity|discriminate]).
    destruct (sm_ihash _ _) as [k| | |] eqn:Ek; cbn [bind]; try (split; [apply agr_eq; reflexivity|discriminate]).
    erewrite val_get by eauto. destruct (fv_get (ch_values t) i) as [v| | |] eqn:Ev; cbn [bind]; try (split; [apply agr_eq; reflexivity|discriminate]).
    apply ihash_small in Ek. apply get_small in Ev. destruct H as (K & _ & _ & _ & W). rewrite K in Ek. rewrite W in Ev. apply Hset; auto. }
  destruct P as (A & B). split.
  - apply agr_bind; [exact A|]. intros n' E. apply B in E. assert (Hs := succ_in _ _ t i H Hi). erewrite arr_get by eauto. apply agr_bind; [apply agr_eq; reflexivity|]. intros w2 _.
    destruct (is_shifted w2); [apply IH; auto|apply agr_eq; reflexivity].
  - intros r E. apply bind_Ok_inv in E as (n' & En & E). apply B in En. apply bind_Ok_inv in E as (w2 & _ & E). assert (Hs := succ_in _ _ t i H Hi).
    destruct (is_shifted w2).
    + destruct r as ((n2, i2), c2). apply (IH t n' (cht_succ t i) (S cnt) qs0 f0 H En Hs) in E. exact E.
    + apply inj_ok in E. subst r. split; auto.
Qed.
Lemma move_all_agr : forall fuel t next i cnt, SZ t -> SZ next -> i < ch_bucket t ->
  agrD (move_all_d setd fuel t next i cnt) (move_all set fuel t next i cnt) /\ forall n', move_all set fuel t next i cnt = Ok n' -> SZ n'.
Proof.
  induction fuel as [|fuel IH]; intros t next i cnt H Hn Hi; cbn [move_all move_all_d].
  { destruct (cnt <? ch_used t); (split; [apply agr_eq; reflexivity|]); [discriminate|]. intros n' E. apply inj_ok in E. subst n'. exact Hn. }
  destruct (cnt <? ch_used t); [|split; [apply agr_eq; reflexivity|]; intros n' E; apply inj_ok in E; subst n'; exact Hn].
  destruct (skip_eq (S (ch_bucket t)) t i H Hi) as (E1 & B1). rewrite E1. destruct (skip_to_cluster (S (ch_bucket t)) t i) as [j| | |]; cbn [bind]; try (split; [apply agr_eq; reflexivity|discriminate]).
  specialize (B1 j eq_refl). destruct (move_cluster_agr (S (ch_bucket t)) t next j cnt [] None H Hn B1) as (A & B). split.
  - apply agr_bind; [exact A|]. intros ((n', i'), c') E. apply B in E as (P & Q). apply IH; auto.
  - intros n' E. apply bind_Ok_inv in E as (((n2, i2), c2) & E2 & E). apply B in E2 as (P & Q). apply IH in E; auto.
Qed.
Lemma resize_agr : forall t b, SZ t -> b < 64 ->
  agrD (cht_resize_d VB L setd t (2 ^ b)) (cht_resize VB L set t (2 ^ b)) /\ forall t', cht_resize VB L set t (2 ^ b) = Ok t' -> SZ t'.
Proof.
  intros t b H Hb. unfold cht_resize_d, cht_resize. cbv zeta. assert (K : ch_key_bits t = kb) by apply H. assert (W : fv_width (ch_values t) = VW) by apply H. rewrite K, W.
  destruct (start_eq b Hb) as (E & t0 & E0 & S0 & _). unfold started in E0.
  assert (X : forall A (k : cht -> res A), (do next <- cht_make_d VB L kb (2 ^ b); do next <- (if VB =? 0 then cht_set_value_width_d VB next VW else Ok next); k next) = k t0).
  { intros A k. unfold started in E. rewrite E0 in E. destruct (cht_make_d VB L kb (2 ^ b)) as [x| | |]; cbn [bind] in E |- *; try discriminate. rewrite E. reflexivity. }
  rewrite X. rewrite E0. cbn [bind]. apply move_all_agr; auto. eapply bucket_pos; eauto.
Qed.
Lemma reserve_agr : forall t n, SZ t -> agrD (cht_reserve_with_d VB L setd t n) (cht_reserve_with VB L set t n) /\ forall t', cht_reserve_with VB L set t n = Ok t' -> SZ t'.
Proof.
  intros t n H. unfold cht_reserve_with_d, cht_reserve_with. destruct (n <=? ch_size t); [split; [apply agr_eq; reflexivity|]; intros t' E; apply inj_ok in E; subst t'; exact H|].
  cbv zeta. match goal with |- context [shl64 1 ?b] => set (bits := b) end. unfold shl64. destruct (N.ltb_spec bits 64) as [Hb|Hb]; cbn [bind]; [|split; [apply agr_eq; reflexivity|discriminate]].
  assert (P : N.to_nat (wshl 1 bits) = 2 ^ N.to_nat bits).
  { unfold wshl, wrap64. rewrite N.shiftl_1_l, N.mod_small by (apply N.pow_lt_mono_r; lia). rewrite N2Nat.inj_pow. reflexivity. }
  rewrite P. apply resize_agr; auto. lia.
Qed.
End Set_.

Lemma set_fuel_agr : forall fuel t k v, SZ t -> (k < 2 ^ N.of_nat kb)%N -> (v < 2 ^ N.of_nat VW)%N ->
  agrD (cht_set_fuel_d VB L fuel t k v) (cht_set_fuel VB L fuel t k v) /\ forall t', cht_set_fuel VB L fuel t k v = Ok t' -> SZ t'.
Proof.
  induction fuel as [|fuel IH]; intros t k v H Hk Hv; cbn [cht_set_fuel cht_set_fuel_d]; [split; [apply agr_eq; reflexivity|discriminate]|].
  assert (K : ch_key_bits t = kb) by apply H. assert (W : fv_width (ch_values t) = VW) by apply H.
  assert (K64 : (k < 2 ^ 64)%N) by (eapply N.lt_le_trans; [exact Hk|]; apply N.pow_le_mono_r; lia).
  assert (V64 : (v < 2 ^ 64)%N) by (eapply N.lt_le_trans; [exact Hv|]; apply N.pow_le_mono_r; lia).
  rewrite K, W, !bits_of_small by assumption. apply N.ltb_lt in Hk as Hk', Hv as Hv'. rewrite Hk', Hv'. cbn [assert_that bind].
  destruct (cht_is_filled t); cbn [bind].
  - destruct (reserve_agr _ _ IH t (size_twice (ch_size t)) H) as (A & B). split.
    + apply agr_bind; [exact A|]. intros t1 E1. apply B in E1. apply agr_eq. apply (insert_eq kb VW t1 k v E1).
    + intros t' E. apply bind_Ok_inv in E as (t1 & E1 & E). apply B in E1. apply (insert_eq kb VW t1 k v E1). exact E.
  - destruct (insert_eq kb VW t k v H) as (A & B). split; [apply agr_eq; exact A|exact B].
Qed.
Lemma step_agr : forall t o, SZ t -> (forall k v, o = TabSet k v -> (k < 2 ^ N.of_nat kb)%N /\ (v < 2 ^ N.of_nat VW)%N) ->
  agrD (tab_step_d VB L t o) (tab_step VB L t o) /\ forall t', tab_step VB L t o = Ok t' -> SZ t'.
Proof.
  intros t o H Ho. destruct o as [k v|n|k]; cbn [tab_step tab_step_d].
  - destruct (Ho k v eq_refl). apply set_fuel_agr; auto.
  - apply (reserve_agr _ _ (set_fuel_agr 4)); auto.
  - unfold cht_erase_d, cht_erase. destruct (ch_size t =? ch_min t); cbn [bind].
    + destruct (reserve_agr _ _ (set_fuel_agr 4) t (size_twice (ch_size t)) H) as (A & B). split.
      * apply agr_bind; [exact A|]. intros t1 E1. apply B in E1. apply agr_eq. apply (erase_here_eq kb VW t1 k E1).
      * intros t' E. apply bind_Ok_inv in E as (t1 & E1 & E). apply B in E1. apply (erase_here_eq kb VW t1 k E1). exact E.
    + destruct (erase_here_eq kb VW t k H) as (A & B). split; [apply agr_eq; exact A|exact B].
Qed.
Lemma steps_agr : forall ops t, SZ t -> Forall (stores_fit kb VW) ops ->
  agrD (foldM (tab_step_d VB L) ops t) (foldM (tab_step VB L) ops t) /\ forall t', foldM (tab_step VB L) ops t = Ok t' -> SZ t'.
Proof.
  induction ops as [|o ops IH]; intros t H F; cbn [foldM].
  - split; [apply agr_eq; reflexivity|]. intros t' E. apply inj_ok in E. subst t'. exact H.
  - inversion F as [|? ? F1 F2]; subst. destruct (step_agr t o H) as (A & B).
    { intros k v ->. exact F1. }
    split.
    + apply agr_bind; [exact A|]. intros t1 E. apply B in E. apply IH; auto.
    + intros t' E. apply bind_Ok_inv in E as (t1 & E1 & E). apply B in E1. apply IH in E; auto.
Qed.
Lemma set_unfit : forall t k v, SZ t -> (k < 2 ^ 64)%N -> (v < 2 ^ 64)%N -> ~ ((k < 2 ^ N.of_nat kb)%N /\ (v < 2 ^ N.of_nat VW)%N) -> cht_set_d VB L t k v = Throw.
Proof.
  intros t k v H K64 V64 U. unfold cht_set_d. cbn [cht_set_fuel_d]. assert (K : ch_key_bits t = kb) by apply H. assert (W : fv_width (ch_values t) = VW) by apply H.
  rewrite K, W, !bits_of_small by assumption. destruct (N.ltb_spec k (2 ^ N.of_nat kb)) as [A|A]; [|reflexivity]. destruct (N.ltb_spec v (2 ^ N.of_nat VW)) as [B|B]; [|reflexivity].
  exfalso. auto.
Qed.

Lemma start_exact : forall bucket, (N.of_nat bucket < 2 ^ 64)%N ->
  (power_of_two bucket -> exists t, cht_start_d VB L kb bucket VW = Ok t /\ cht_start VB L kb bucket VW = Ok t) /\ (~ power_of_two bucket -> cht_start_d VB L kb bucket VW = Throw).
Proof.
  intros bucket Hb. split.
  - intros (b & ->). assert (B : b < 64).
    { destruct (Nat.lt_ge_cases b 64) as [|G]; auto. exfalso. rewrite pow_of_nat in Hb. apply N.pow_lt_mono_r_iff in Hb; lia. }
    destruct (start_eq b B) as (E & t & E0 & _). exists t. unfold cht_start_d, cht_start. rewrite E. split; exact E0.
  - intros P. unfold cht_start_d, cht_make_d. cbv zeta. unfold fv_sized_d. assert (A1 : (VB <=? 64) = true) by (apply Nat.leb_le; lia). rewrite A1. cbn [assert_that bind].
    destruct (N.eqb_spec (popcnt64 (N.of_nat bucket)) 1) as [E|E]; [|reflexivity]. exfalso. apply P. apply one_bit in E as (b & _ & E); auto. exists b.
    rewrite <- pow_of_nat in E. lia.
Qed.

(** ** Histories *)
Lemma run_agr : forall b ops, b < 64 -> Forall (stores_fit kb VW) ops ->
  (tab_run VB L kb (2 ^ b) VW ops <> UB -> tab_run_d VB L kb (2 ^ b) VW ops = tab_run VB L kb (2 ^ b) VW ops) /\
  forall t k, tab_run VB L kb (2 ^ b) VW ops = Ok t -> (k < 2 ^ 64)%N ->
    cht_get_d t k = if (k <? 2 ^ N.of_nat kb)%N then cht_get t k else Throw.
Proof.
  intros b ops Hb F. unfold tab_run_d, tab_run, cht_start_d, cht_start. destruct (start_eq b Hb) as (E & t0 & E0 & S0 & _). rewrite E. unfold started in *. rewrite E0. cbn [bind].
  destruct (steps_agr ops t0 S0 F) as (A & B). split.
  - intros U. destruct A as [A|A]; [contradiction|exact A].
  - intros t k Et K64. apply B in Et. destruct (N.ltb_spec k (2 ^ N.of_nat kb)) as [C|C].
    + apply (get_eq kb VW); auto; try lia.
    + eapply get_unfit; eauto.
Qed.
Lemma run_unfit : forall b pre k v post t, b < 64 -> Forall (stores_fit kb VW) pre -> (k < 2 ^ 64)%N -> (v < 2 ^ 64)%N -> ~ ((k < 2 ^ N.of_nat kb)%N /\ (v < 2 ^ N.of_nat VW)%N) ->
  tab_run VB L kb (2 ^ b) VW pre = Ok t -> tab_run_d VB L kb (2 ^ b) VW (pre ++ TabSet k v :: post) = Throw.
Proof.
  intros b pre k v post t Hb F K64 V64 U Et. destruct (run_agr b pre Hb F) as (A & _).
  assert (E : tab_run_d VB L kb (2 ^ b) VW pre = Ok t) by (rewrite A; [exact Et|congruence]).
  unfold tab_run_d in *. destruct (cht_start_d VB L kb (2 ^ b) VW) as [t0| | |]; cbn [bind] in *; try discriminate. rewrite foldM_app, E. cbn [bind foldM tab_step_d].
  assert (SZt : SZ t).
  { unfold tab_run, cht_start in Et. destruct (start_eq b Hb) as (_ & t1 & E0 & S0 & _). unfold started in E0. rewrite E0 in Et. cbn [bind] in Et. apply (steps_agr pre t1 S0 F) in Et. exact Et. }
  rewrite (set_unfit t k v SZt K64 V64 U). reflexivity.
Qed.
End Debug.
