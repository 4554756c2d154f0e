(** CDRWVector with assertions on. *)
From Coq Require Import List NArith ZArith Arith Bool Lia.
From Verif Require Import Base Spec Spec4 Spec8 Spec9 Spec11 BitUtilModel FitVectorModel FitVectorProof HashModel FoDebugModel CHTModel CHTDebugModel CHTDebug CHTDebug2 CDRWModel CDRWDebugModel CDRWDebug.
From Verif Require CHTDel CDRWProof CDRWAll CDRWVecAll.
Import CDRWProof CDRWAll CDRWVecAll.
Import ListNotations.
Local Open Scope nat_scope.

Lemma cinv_ext : forall n a f f' m E, cinv n a f m E -> (forall i, i < n -> f i = f' i) -> cinv n a f' m E.
Proof.
  intros n a f f' m E ((wl & W1 & W2 & W3 & W4) & T & F) X. split; [|split].
  - exists wl. do 3 (split; auto). intros i Hi. rewrite <- X by auto. auto.
  - eapply tabs_weaken; eauto. cbv beta. intros w j x Hj (<- & Q). rewrite X by auto. split; auto.
  - intros i Hi. rewrite <- X by auto. auto.
Qed.
Lemma copy_agr : forall c (getd get : nat -> res N) (x : nat -> N), 1 <= c -> (N.of_nat c <= 2 ^ 50)%N -> forall l a, ASized c a ->
  (forall i, In i l -> getd i = Ok (x i) /\ get i = Ok (x i) /\ i < c /\ (x i < 2 ^ 64)%N) ->
  agrD (foldM (fun next i => do x <- getd i; cdrw_set_d next i x) l a) (foldM (fun next i => do x <- get i; cdrw_set next i x) l a) /\
  forall a', foldM (fun next i => do x <- get i; cdrw_set next i x) l a = Ok a' -> ASized c a'.
Proof.
  intros c getd get x H1 H50. induction l as [|i l IH]; intros a Sa H; cbn [foldM].
  - split; [apply agr_eq; reflexivity|]. intros a' E. apply inj_ok in E. subst a'. exact Sa.
  - destruct (H i (or_introl eq_refl)) as (G1 & G2 & Hi & Hx). rewrite G1, G2. cbn [bind]. destruct (set_agr c H1 H50 a i (x i) Sa Hi Hx) as (A & B). split.
    + apply agr_bind; [exact A|]. intros a1 E1. apply IH; auto. intros j Hj. apply H. right. exact Hj.
    + intros a' E. apply bind_Ok_inv in E as (a1 & E1 & E). apply (IH a1); auto. intros j Hj. apply H. right. exact Hj.
Qed.

Definition vex (v : cdvec) (s : tape) (m : nat) : Prop :=
  dv_size v = tp_size s /\ dv_cap v = length (tp_cells s) /\ 1 <= dv_cap v /\ (N.of_nat (dv_cap v) <= 2 ^ 50)%N /\ dv_size v <= dv_cap v /\
  (exists E, cinv (dv_cap v) (dv_arr v) (fun i => nth i (tp_cells s) 0%N) m E) /\ ASized (dv_cap v) (dv_arr v).
(** element [i] can be read *)
Definition reads (v : cdvec) (s : tape) (i : nat) : Prop := cdv_get v i = Ok (nth i (tp_cells s) 0%N) /\ cdv_get_d v i = Ok (nth i (tp_cells s) 0%N).
Definition gone (v : cdvec) (s : tape) (i : nat) : Prop := cdv_get v i = Ok 0%N /\ nth i (tp_cells s) 0%N <> 0%N /\ cdv_get_d v i = Throw.
Lemma vx_get : forall v s m i, vex v s m -> i < dv_cap v -> reads v s i \/ gone v s i.
Proof. intros v s m i (_ & _ & H1 & H50 & _ & (E & I) & Sa) Hi. apply (get_cases _ H1 H50 _ _ _ _ i I Sa Hi). Qed.
Lemma vx_small : forall v s m i, vex v s m -> i < dv_cap v -> (nth i (tp_cells s) 0 < 2 ^ 63)%N.
Proof. intros v s m i (_ & _ & _ & _ & _ & (E & (_ & _ & F)) & _) Hi. apply F. exact Hi. Qed.
Lemma first_gone : forall v s m k, vex v s m -> k <= dv_cap v -> (forall i, i < k -> reads v s i) \/ exists i, i < k /\ gone v s i /\ forall j, j < i -> reads v s j.
Proof.
  intros v s m k V. induction k as [|k IH]; intros Hk; [left; intros; lia|]. destruct IH as [A|(i & Hi & G & A)]; [lia| |right; exists i; split; [lia|auto]].
  destruct (vx_get v s m k V Hk) as [R|R]; [left|right; exists k; auto]. intros i Hi. destruct (Nat.eq_dec i k) as [->|]; [exact R|apply A; lia].
Qed.
Definition blocked (v : cdvec) (s : tape) (c : nat) : Prop := ~ power_of_two c \/ exists i, i < tp_size s /\ cdv_get v i <> Ok (nth i (tp_cells s) 0%N).
Lemma pow2_dec : forall c, (N.of_nat c < 2 ^ 64)%N -> ((popcnt64 (N.of_nat c) =? 1)%N = true /\ power_of_two c) \/ ((popcnt64 (N.of_nat c) =? 1)%N = false /\ ~ power_of_two c).
Proof.
  intros c Hc. destruct (N.eqb_spec (popcnt64 (N.of_nat c)) 1) as [E|E].
  - left. split; [reflexivity|]. apply one_bit in E as (b & _ & E); [|exact Hc]. exists b. rewrite <- pow_of_nat in E. lia.
  - right. split; [reflexivity|]. intros (b & ->). apply E. apply pow2_facts. destruct (Nat.lt_ge_cases b 64) as [|G]; auto. exfalso. rewrite pow_of_nat in Hc. apply N.pow_lt_mono_r_iff in Hc; lia.
Qed.
Lemma vx_allocate : forall v s m c, vex v s m -> 1 <= c -> (N.of_nat c <= 2 ^ 50)%N -> tp_size s <= c -> (N.of_nat (tp_size s) <= 2 ^ 49)%N ->
  (blocked v s c /\ cdv_allocate_d v c = Throw) \/
  (~ blocked v s c /\ exists v', cdv_allocate_d v c = Ok v' /\ cdv_allocate v c = Ok v' /\ vex v' (retape c s) (tp_size s) /\ forall x, ~ stuck_at (dv_arr v') x).
Proof.
  intros v s m c V H1c H50c Hc' Hs49. pose proof V as (Hs & Hc & H1 & H50 & Hle & _). unfold cdv_allocate_d. rewrite (proj2 (Nat.leb_le (dv_size v) c)) by lia. cbn [assert_that bind].
  assert (C64 : (N.of_nat c < 2 ^ 64)%N) by (nums; change (2 ^ 64)%N with 18446744073709551616%N; lia).
  destruct (pow2_dec c C64) as [(P & Pc)|(P & Pc)]; rewrite P; cbn [assert_that bind]; [|left; split; [left; exact Pc|reflexivity]].
  destruct (make_agr c H1c H50c) as (Em & Sm). rewrite Em. destruct (make_both c H1c H50c) as (a & E & I & F). pose proof (Sm a E) as Sa. rewrite E. cbn [bind].
  assert (Rd : forall l, (forall i, In i l -> i < tp_size s /\ reads v s i) -> forall i, In i l -> cdv_get_d v i = Ok (nth i (tp_cells s) 0%N) /\ cdv_get v i = Ok (nth i (tp_cells s) 0%N) /\ i < c /\ (nth i (tp_cells s) 0 < 2 ^ 64)%N).
  { intros l H i Hi. destruct (H i Hi) as (Li & (R1 & R2)). split; [exact R2|]. split; [exact R1|]. split; [lia|]. pose proof (vx_small v s m i V ltac:(lia)). change (2 ^ 63)%N with 9223372036854775808%N in *. change (2 ^ 64)%N with 18446744073709551616%N. lia. }
  destruct (first_gone v s m (dv_size v) V Hle) as [A|(i & Hi & G & A)].
  - right. split.
    + intros [B|(j & Hj & B)]; [contradiction|]. apply B. apply A. lia.
    + destruct (copy_both c H1c H50c (cdv_get v) (fun i => nth i (tp_cells s) 0%N) (tp_size s) Hc' Hs49) with (a := a) (k := tp_size s) as (a' & E' & I' & F'); auto.
      * intros i Hi. apply A. lia.
      * intros i Hi. eapply vx_small; [exact V|lia].
      * destruct (copy_agr c (cdv_get_d v) (cdv_get v) (fun i => nth i (tp_cells s) 0%N) H1c H50c (seq 0 (tp_size s)) a Sa) as (Ag & Ss).
        { apply Rd. intros i Hi. apply in_seq in Hi. split; [lia|apply A; lia]. }
        exists (CDV (tp_size s) c a'). rewrite Hs. split; [destruct Ag as [Ag|Ag]; [congruence|rewrite Ag, E'; reflexivity]|].
        split; [unfold cdv_allocate; rewrite E; cbn [bind]; rewrite Hs, E'; reflexivity|].
        split; [|intros x; exact (copy_roomy c H1c H50c a' _ _ x I')]. unfold vex. cbn [dv_size dv_cap dv_arr]. split; [reflexivity|]. split; [symmetry; apply retape_cells; lia|]. do 3 (split; auto). split; [|apply Ss; exact E'].
        exists 0. eapply cinv_ext; [apply (both_cinv c H1c H50c); [|exact I'|exact F']; nums; lia|]. intros i Hi. unfold retape. cbn [tp_cells]. now rewrite nth_retape by lia.
  - left. destruct G as (G1 & G2 & G3). split; [right; exists i; split; [lia|]; rewrite G1; intros Q; apply inj_ok in Q; congruence|].
    assert (Sp : seq 0 (dv_size v) = seq 0 i ++ i :: seq (S i) (dv_size v - i - 1)).
    { replace (dv_size v) with (i + (1 + (dv_size v - i - 1))) at 1 by lia. rewrite seq_app. reflexivity. }
    rewrite Sp, foldM_app. destruct (copy_both c H1c H50c (cdv_get v) (fun i => nth i (tp_cells s) 0%N) i) with (a := a) (k := i) as (a' & E' & _ & _); auto; try lia.
    { intros j Hj. apply A. exact Hj. }
    { intros j Hj. eapply vx_small; [exact V|lia]. }
    destruct (copy_agr c (cdv_get_d v) (cdv_get v) (fun i => nth i (tp_cells s) 0%N) H1c H50c (seq 0 i) a Sa) as (Ag & _).
    { apply Rd. intros j Hj. apply in_seq in Hj. split; [lia|apply A; lia]. }
    destruct Ag as [Ag|Ag]; [congruence|]. rewrite Ag, E'. cbn [bind foldM]. rewrite G3. reflexivity.
Qed.
Lemma vx_put : forall v s m i x, vex v s m -> i < dv_cap v -> (x < 2 ^ 63)%N -> (N.of_nat m < 2 ^ 50 - 1)%N ->
  (cdv_set_d v i x = Fuel /\ cdv_set v i x = Fuel /\ stuck_at (dv_arr v) x) \/ exists v', cdv_set_d v i x = Ok v' /\ cdv_set v i x = Ok v' /\ vex v' (tape_put s i x) (S (S m)).
Proof.
  intros v s m i x (Hs & Hc & H1 & H50 & Hle & (E & I) & Sa) Hi Hx Hm. unfold cdv_set, cdv_set_d.
  assert (X64 : (x < 2 ^ 64)%N) by (change (2 ^ 63)%N with 9223372036854775808%N in Hx; change (2 ^ 64)%N with 18446744073709551616%N; lia).
  destruct (set_agr _ H1 H50 _ i x Sa Hi X64) as (Ag & Ss).
  destruct (set_cinv _ H1 H50 _ _ _ _ i x I Hi Hx Hm) as [(Ea & St)|(a' & Ea & I')]; [left; split; [destruct Ag as [Ag|Ag]; [congruence|rewrite Ag, Ea; reflexivity]|split; [rewrite Ea; reflexivity|exact St]]|right]. exists (CDV (dv_size v) (dv_cap v) a').
  split; [destruct Ag as [Ag|Ag]; [congruence|rewrite Ag, Ea; reflexivity]|]. split; [rewrite Ea; reflexivity|]. unfold vex, tape_put. cbn [dv_size dv_cap dv_arr tp_size tp_cells tp_changes]. rewrite put_at_length by lia. do 5 (split; auto). split; [|apply Ss; exact Ea].
  eexists. eapply cinv_ext; [exact I'|]. intros j Hj. rewrite nth_put_at by lia. unfold updf. destruct (i =? j); auto.
Qed.
Lemma vx_resize : forall v s m k, vex v s m -> k <= dv_cap v -> vex (CDV k (dv_cap v) (dv_arr v)) (resize_to k s) m.
Proof. intros v s m k (Hs & Hc & H1 & H50 & Hle & R) Hk. unfold vex, resize_to. cbn [dv_size dv_cap dv_arr tp_size tp_cells tp_changes]. auto 8. Qed.

Definition okd (v : cdvec) (s : tape) (k : nat) : Prop := exists m, vex v s m /\ (N.of_nat (tp_size s) <= 2 ^ 48)%N /\ (N.of_nat (length (tp_cells s)) <= 2 ^ 49)%N /\ (N.of_nat m <= 2 ^ 48 + 2 * N.of_nat k)%N.
Lemma vx_grow : forall v s k c (b : bool), okd v s k -> (N.of_nat k < 2 ^ 48)%N -> (b = true -> 1 <= c /\ tp_size s <= c /\ (N.of_nat c <= 2 ^ 49)%N) ->
  (b = true /\ blocked v s c /\ (if b then cdv_allocate_d v c else Ok v) = Throw) \/
  ((b = true -> ~ blocked v s c) /\ exists v', (if b then cdv_allocate_d v c else Ok v) = Ok v' /\ (if b then cdv_allocate v c else Ok v) = Ok v' /\ okd v' (if b then retape c s else s) k /\ forall x, stuck_at (dv_arr v') x -> v' = v).
Proof.
  intros v s k c b (m & V & Hs48 & Hc49 & Hm) Hk Hb. destruct b; [|right; split; [discriminate|]; exists v; split; auto; split; auto; split; auto; exists m; auto]. destruct (Hb eq_refl) as (C1 & C2 & C3).
  destruct (vx_allocate v s m c V C1) as [(B & E)|(B & v' & E & E2 & V' & Rm)]; [nums; lia|auto|nums; lia|left; auto|right]. split; auto. exists v'. split; auto. split; auto. split; [|intros x St; exfalso; exact (Rm x St)]. exists (tp_size s). split; auto. split; [cbn [retape tp_size]; auto|]. split; [|nums; lia].
  rewrite retape_cells; auto. destruct V as (A1 & A2 & _ & _ & A3 & _). lia.
Qed.
Definition stepped (v : cdvec) (s : tape) (o : dv_op) (s' : tape) (k : nat) : Prop :=
  (exists c, new_capacity s o = Some c /\ blocked v s c /\ cdv_step_d v o = Throw) \/
  ((forall c, new_capacity s o = Some c -> ~ blocked v s c) /\ ((cdv_step_d v o = Fuel /\ cdv_step v o = Fuel /\ exists x, (o = DPush x \/ exists i, o = DSet i x) /\ stuck_at (dv_arr v) x) \/ exists v', cdv_step_d v o = Ok v' /\ cdv_step v o = Ok v' /\ okd v' s' (S k))).
Lemma vx_step : forall v s k o s', okd v s k -> (N.of_nat k < 2 ^ 48)%N -> tape_step s o = Some s' -> stepped v s o s' k.
Proof.
  intros v s k o s' K Hk E. pose proof K as (m & V & Hs48 & Hc49 & Hm). pose proof V as (Hs & Hc & H1 & H50 & Hle & _).
  assert (Up : forall v s, okd v s k -> okd v s (S k)) by (intros v0 s0 (m0 & V0 & A0 & B0 & C0); exists m0; do 3 (split; auto); lia).
  unfold tape_step in E. cbv zeta in E. unfold stepped, new_capacity. cbv zeta. destruct o as [x| |n|n| | |i x]; cbn [cdv_step cdv_step_d].
  - destruct (N.ltb_spec x (2 ^ 63)) as [Hx|]; [|discriminate]. destruct (N.ltb_spec (N.of_nat (tp_size s)) (2 ^ 48)) as [Hn|]; [|discriminate]. cbn [andb] in E. injection E as <-.
    rewrite <- Hs, <- Hc in *.
    destruct (vx_grow v s k (dv_size v * 2) (dv_size v =? dv_cap v) K Hk) as [(B1 & B2 & B3)|(B1 & v1 & E0 & E1 & K1 & Rm1)].
    { intros Eq. apply Nat.eqb_eq in Eq. split; [lia|]. split; [lia|]. nums. lia. }
    { left. exists (dv_size v * 2). rewrite B1 in *. split; auto. split; auto. rewrite B3. reflexivity. }
    right. split.
    { intros c Q. destruct (dv_size v =? dv_cap v); [|discriminate]. injection Q as <-. auto. }
    rewrite E0, E1. cbn [bind]. set (s1 := if dv_size v =? dv_cap v then retape (dv_size v * 2) s else s) in *.
    assert (S1 : tp_size s1 = dv_size v) by (unfold s1; destruct (dv_size v =? dv_cap v); symmetry; exact Hs).
    assert (C1 : dv_size v < length (tp_cells s1)). { unfold s1. destruct (Nat.eqb_spec (dv_size v) (dv_cap v)); [rewrite retape_cells; lia|lia]. }
    clearbody s1. destruct K1 as (m1 & V1 & A1 & B4 & M1). pose proof V1 as (Hs1 & Hc1 & _). cbn [dv_size]. replace (S (dv_size v1) - 1) with (dv_size v) by lia.
    assert (V1' : vex (CDV (S (dv_size v1)) (dv_cap v1) (dv_arr v1)) (resize_to (S (dv_size v)) s1) m1).
    { rewrite Hs1, S1. apply vx_resize; auto. lia. }
    destruct (vx_put _ _ _ (dv_size v) x V1') as [(E2 & E3 & St)|(v2 & E2 & E3 & V2)]; [cbn [dv_cap]; lia|auto|nums; lia|left; split; auto; split; auto; exists x; split; auto; rewrite <- (Rm1 x St); exact St|]. right. exists v2. split; auto. split; auto. exists (S (S m1)). split; [exact V2|].
    cbn [resize_to tape_put tp_size tp_cells]. split; [nums; lia|]. split; [rewrite put_at_length by lia; auto|nums; lia].
  - rewrite <- Hs, <- Hc in *. destruct (Nat.eqb_spec (dv_size v) 0) as [Z|Z].
    { injection E as <-. right. rewrite Z. cbn [Nat.ltb Nat.leb andb]. split; [discriminate|]. right. exists v. split; auto. }
    injection E as <-. rewrite (proj2 (Nat.ltb_lt 0 (dv_size v))) by lia. cbn [andb].
    destruct (vx_grow v s k (dv_size v * 2) (dv_size v * 3 <? dv_cap v) K Hk) as [(B1 & B2 & B3)|(B1 & v1 & E0 & E1 & K1 & Rm1)].
    { intros Eq. apply Nat.ltb_lt in Eq. split; [lia|]. split; [lia|]. nums. lia. }
    { left. exists (dv_size v * 2). rewrite B1 in *. split; auto. split; auto. rewrite B3. reflexivity. }
    right. split.
    { intros c Q. destruct (dv_size v * 3 <? dv_cap v); [|discriminate]. injection Q as <-. auto. }
    rewrite E0, E1. cbn [bind]. right. eexists. split; [reflexivity|]. split; [reflexivity|]. apply Up.
    destruct K1 as (m1 & V1 & A1 & B4 & M1). pose proof V1 as (Hs1 & Hc1 & _ & _ & Hle1 & _). exists m1.
    assert (S1 : dv_size v1 = dv_size v). { rewrite Hs1. destruct (dv_size v * 3 <? dv_cap v); symmetry; exact Hs. }
    rewrite S1. split; [apply vx_resize; auto; lia|]. cbn [resize_to tp_size tp_cells]. split; [nums; lia|auto].
  - destruct (N.ltb_spec (N.of_nat n) (2 ^ 48)) as [Hn|]; [|discriminate]. injection E as <-. rewrite <- Hc in *.
    destruct (vx_grow v s k (Nat.max n (dv_cap v * 2)) (dv_cap v <? n) K Hk) as [(B1 & B2 & B3)|(B1 & v1 & E0 & E1 & K1 & Rm1)].
    { intros Eq. apply Nat.ltb_lt in Eq. split; [lia|]. split; [lia|]. nums. lia. }
    { left. eexists. rewrite B1 in *. split; [reflexivity|]. split; auto. rewrite B3. reflexivity. }
    right. split.
    { intros c Q. destruct (dv_cap v <? n); [|discriminate]. injection Q as <-. auto. }
    rewrite E0, E1. cbn [bind]. right. eexists. split; [reflexivity|]. split; [reflexivity|]. apply Up.
    destruct K1 as (m1 & V1 & A1 & B4 & M1). pose proof V1 as (Hs1 & Hc1 & _ & _ & Hle1 & _). exists m1.
    assert (C1 : n <= dv_cap v1). { rewrite Hc1. destruct (Nat.ltb_spec (dv_cap v) n); [rewrite retape_cells; lia|lia]. }
    split; [apply vx_resize; auto|]. cbn [resize_to tp_size tp_cells]. split; [nums; lia|auto].
  - destruct (N.ltb_spec (N.of_nat n) (2 ^ 48)) as [Hn|]; [|discriminate]. injection E as <-. rewrite <- Hc in *.
    assert (Nl : forall A (p q : A), (if n <=? dv_cap v then q else p) = if dv_cap v <? n then p else q).
    { intros A p q. destruct (Nat.leb_spec n (dv_cap v)); destruct (Nat.ltb_spec (dv_cap v) n); auto; lia. }
    rewrite !Nl.
    destruct (vx_grow v s k (Nat.max n (dv_cap v * 2)) (dv_cap v <? n) K Hk) as [(B1 & B2 & B3)|(B1 & v1 & E0 & E1 & K1 & Rm1)].
    { intros Eq. apply Nat.ltb_lt in Eq. split; [lia|]. split; [lia|]. nums. lia. }
    { left. eexists. rewrite B1 in *. split; [reflexivity|]. split; auto. }
    right. split.
    { intros c Q. destruct (dv_cap v <? n); [|discriminate]. injection Q as <-. auto. }
    right. exists v1. split; [exact E0|]. split; [exact E1|]. apply Up. exact K1.
  - rewrite <- Hs, <- Hc in *. destruct (Nat.eqb_spec (dv_size v) (dv_cap v)) as [Q|Q]; [injection E as <-; right; split; [discriminate|]; right; exists v; auto|]. destruct (Nat.eqb_spec (dv_size v) 0) as [Z|Z]; [discriminate|]. injection E as <-.
    destruct (vx_grow v s k (dv_size v) true K Hk) as [(B1 & B2 & B3)|(B1 & v1 & E0 & E1 & K1 & Rm1)]; [intros _; split; [lia|]; split; [lia|]; nums; lia| |].
    { left. eexists. split; [reflexivity|]. auto. }
    right. split; [intros c Qc; injection Qc as <-; auto|]. right. exists v1. auto.
  - injection E as <-. right. split; [discriminate|]. right. eexists. split; [reflexivity|]. split; [reflexivity|]. apply Up. exists m. split; [apply vx_resize; auto; lia|]. cbn [resize_to tp_size tp_cells]. split; [nums; lia|auto].
  - destruct (Nat.ltb_spec i (tp_size s)) as [Hi|]; [|discriminate]. destruct (N.ltb_spec x (2 ^ 63)) as [Hx|]; [|discriminate]. cbn [andb] in E. injection E as <-.
    right. split; [discriminate|].
    destruct (vx_put v s m i x V) as [(E2 & E3 & St)|(v2 & E2 & E3 & V2)]; [lia|auto|nums; lia|left; split; auto; split; auto; exists x; eauto|]. right. exists v2. split; auto. split; auto. exists (S (S m)). split; auto. cbn [tape_put tp_size tp_cells]. split; auto. split; [rewrite put_at_length by lia; auto|nums; lia].
Qed.
Lemma snoc_split : forall A (l : list A) x pre y post, l ++ [x] = pre ++ y :: post -> (post = [] /\ pre = l /\ y = x) \/ exists post', post = post' ++ [x] /\ l = pre ++ y :: post'.
Proof.
  intros A l x pre y post E. destruct post as [|z post _] using rev_ind.
  - left. apply app_inj_tail in E as (-> & ->). auto.
  - right. exists post. rewrite app_comm_cons, app_assoc in E. apply app_inj_tail in E as (E & ->). auto.
Qed.
Theorem vec_debug_exact : forall n ops s, 1 <= n -> (N.of_nat n <= 2 ^ 48)%N -> (N.of_nat (length ops) <= 2 ^ 48)%N -> steps tape_step (Tape n (repeat 0%N n) 0) ops = Some s ->
  (exists pre o x post v, ops = pre ++ o :: post /\ (o = DPush x \/ exists i, o = DSet i x) /\ cdv_run_d n pre = Ok v /\ cdv_run n pre = Ok v /\ stuck_at (dv_arr v) x /\ cdv_run_d n ops = Fuel /\ cdv_run n ops = Fuel) \/
  (exists pre o post v s1 c, ops = pre ++ o :: post /\ cdv_run_d n pre = Ok v /\ steps tape_step (Tape n (repeat 0%N n) 0) pre = Some s1 /\ new_capacity s1 o = Some c /\
     (~ power_of_two c \/ exists i, i < tp_size s1 /\ cdv_get v i <> Ok (nth i (tp_cells s1) 0%N)) /\ cdv_run_d n ops = Throw) \/
  (exists v, cdv_run_d n ops = Ok v /\ cdv_run n ops = Ok v /\
     (forall i, i < length (tp_cells s) -> (cdv_get v i = Ok (nth i (tp_cells s) 0%N) /\ cdv_get_d v i = Ok (nth i (tp_cells s) 0%N)) \/ (cdv_get v i = Ok 0%N /\ nth i (tp_cells s) 0%N <> 0%N /\ cdv_get_d v i = Throw)) /\
     forall pre o post s1 c, ops = pre ++ o :: post -> steps tape_step (Tape n (repeat 0%N n) 0) pre = Some s1 -> new_capacity s1 o = Some c ->
       power_of_two c /\ exists v1, cdv_run_d n pre = Ok v1 /\ forall i, i < tp_size s1 -> cdv_get v1 i = Ok (nth i (tp_cells s1) 0%N)).
Proof.
  intros n ops s H1 H48 Hl Hs. assert (H50 : (N.of_nat n <= 2 ^ 50)%N) by (nums; lia).
  match goal with |- ?F \/ ?T \/ ?G => assert (A : F \/ T \/ exists v, cdv_run_d n ops = Ok v /\ cdv_run n ops = Ok v /\ okd v s (length ops) /\
    forall pre o post s1 c, ops = pre ++ o :: post -> steps tape_step (Tape n (repeat 0%N n) 0) pre = Some s1 -> new_capacity s1 o = Some c ->
       exists v1 k, cdv_run_d n pre = Ok v1 /\ okd v1 s1 k /\ ~ blocked v1 s1 c /\ (N.of_nat c <= 2 ^ 50)%N) end.
  2: { destruct A as [A|[A|(v & E1 & E2 & K & A)]]; [auto|auto|right; right]. exists v. split; auto. split; auto. destruct K as (m & V & _). split.
    - intros i Hi. apply (vx_get v s m i V). destruct V as (_ & -> & _). exact Hi.
    - intros pre o post s1 c Ep Es Ec. destruct (A pre o post s1 c Ep Es Ec) as (v1 & k & E3 & (m1 & V1 & _) & B & Hc). split.
      + destruct (pow2_dec c) as [(_ & P)|(_ & P)]; [nums; change (2 ^ 64)%N with 18446744073709551616%N; lia|exact P|]. exfalso. apply B. left. exact P.
      + exists v1. split; auto. intros i Hi. pose proof V1 as (Q1 & Q2 & _ & _ & Q3 & _). destruct (vx_get v1 s1 m1 i V1 ltac:(lia)) as [(R & _)|(R & R2 & _)]; [exact R|].
        exfalso. apply B. right. exists i. split; auto. rewrite R. intros Q. apply inj_ok in Q. congruence. }
  unfold cdv_run_d, cdv_run, cdv_make, cdv_make_d. destruct (make_agr n H1 H50) as (Em & Sm). rewrite Em. destruct (make_cinv n H1 H50) as (a & E & I). rewrite E. cbn [bind]. specialize (Sm a E). set (v0 := CDV n n a).
  revert s Hs Hl. induction ops as [|o ops IH] using rev_ind; intros s Hs Hl.
  - right. right. exists v0. split; auto. split; auto. split; [|intros pre o post ? ? Q; destruct pre; discriminate].
    cbn [steps] in Hs. injection Hs as <-. exists 0. unfold v0, vex. cbn [dv_size dv_cap dv_arr tp_size tp_cells tp_changes]. rewrite repeat_length. split; [|split; [auto|split; [nums; lia|nums; lia]]].
    split; auto. split; auto. split; auto. split; auto. split; auto. split; [|exact Sm]. exists 0. eapply cinv_ext; [exact I|]. intros i Hi. now rewrite nth_repeat.
  - rewrite steps_snoc in Hs. destruct (steps _ _ ops) as [s1|] eqn:Es; [|discriminate]. rewrite app_length in Hl. simpl in Hl.
    destruct (IH s1 eq_refl) as [(pre & o1 & x & post & v & Ep & Eo & Er & Er2 & St & Fu & Fu2)|[(pre & o1 & post & v & s2 & c & Ep & Er & Es2 & Ec & B & Th)|(v & Er & Er2 & K & P)]]; [lia|left; exists pre, o1, x, (post ++ [o]), v; rewrite app_comm_cons, app_assoc, <- Ep; do 5 (split; auto); split; [rewrite foldM_app, Fu|rewrite foldM_app, Fu2]; reflexivity| |].
    { right. left. exists pre, o1, (post ++ [o]), v, s2, c. split; [rewrite Ep, <- app_assoc; reflexivity|]. do 4 (split; auto). rewrite foldM_app, Th. reflexivity. }
    destruct (vx_step v s1 (length ops) o s K ltac:(lia) Hs) as [(c & Ec & B & Th)|(B & [(E1 & E2 & x & Eo & St)|(v' & E1 & E2 & K')])].
    { right. left. exists ops, o, [], v, s1, c. do 5 (split; auto). rewrite foldM_app, Er. cbn [bind foldM]. rewrite Th. reflexivity. }
    { left. exists ops, o, x, [], v. do 5 (split; auto). split; [rewrite foldM_app, Er|rewrite foldM_app, Er2]; cbn [bind foldM]; [rewrite E1|rewrite E2]; reflexivity. }
    assert (Er' : foldM cdv_step_d (ops ++ [o]) v0 = Ok v') by (rewrite foldM_app, Er; cbn [bind foldM]; rewrite E1; reflexivity).
    right. right. exists v'. split; auto. split; [rewrite foldM_app, Er2; cbn [bind foldM]; rewrite E2; reflexivity|]. split; [rewrite app_length, Nat.add_1_r; exact K'|].
    intros pre o1 post s2 c Ep Es2 Ec. destruct (snoc_split _ _ _ _ _ _ Ep) as [(-> & -> & ->)|(post' & -> & ->)]; [|eapply P; eauto].
    rewrite Es in Es2. injection Es2 as <-. exists v, (length ops). split; auto. split; auto. split; [auto|].
    destruct K as (m & V & Q48 & Q49 & _). unfold new_capacity in Ec. unfold tape_step in Hs. cbv zeta in Ec, Hs. nums.
    destruct o as [x| |k|k| | |i x]; try discriminate; repeat match goal with H : context [if ?b then _ else _] |- _ => destruct b eqn:? end; try discriminate; injection Ec as <-;
      repeat match goal with H : (_ =? _) = true |- _ => apply Nat.eqb_eq in H | H : (_ && _) = true |- _ => apply andb_true_iff in H as (? & ?) | H : (_ <? _) = true |- _ => apply Nat.ltb_lt in H | H : (_ <? _)%N = true |- _ => apply N.ltb_lt in H end;
      destruct V as (W1 & W2 & _ & _ & W3 & _); lia.
Qed.
Theorem vec_debug : forall n ops s, 1 <= n -> (N.of_nat n <= 2 ^ 48)%N -> (N.of_nat (length ops) <= 2 ^ 48)%N -> steps tape_step (Tape n (repeat 0%N n) 0) ops = Some s ->
  (exists pre post v, ops = pre ++ post /\ cdv_run_d n pre = Ok v /\ exists t, In t (cd_tables (dv_arr v)) /\ ch_used t = ch_bucket t) \/
  (exists pre o post v s1 c, ops = pre ++ o :: post /\ cdv_run_d n pre = Ok v /\ steps tape_step (Tape n (repeat 0%N n) 0) pre = Some s1 /\ new_capacity s1 o = Some c /\
     (~ power_of_two c \/ exists i, i < tp_size s1 /\ cdv_get v i <> Ok (nth i (tp_cells s1) 0%N)) /\ cdv_run_d n ops = Throw) \/
  (exists v, cdv_run_d n ops = Ok v /\ cdv_run n ops = Ok v /\
     (forall i, i < length (tp_cells s) -> (cdv_get v i = Ok (nth i (tp_cells s) 0%N) /\ cdv_get_d v i = Ok (nth i (tp_cells s) 0%N)) \/ (cdv_get v i = Ok 0%N /\ nth i (tp_cells s) 0%N <> 0%N /\ cdv_get_d v i = Throw)) /\
     forall pre o post s1 c, ops = pre ++ o :: post -> steps tape_step (Tape n (repeat 0%N n) 0) pre = Some s1 -> new_capacity s1 o = Some c ->
       power_of_two c /\ exists v1, cdv_run_d n pre = Ok v1 /\ forall i, i < tp_size s1 -> cdv_get v1 i = Ok (nth i (tp_cells s1) 0%N)).
Proof.
  intros n ops s H1 H48 Hl Hs. destruct (vec_debug_exact n ops s H1 H48 Hl Hs) as [(pre & o & x & post & v & Ep & _ & Er & _ & St & _)|A]; [left|right; exact A]. exists pre, (o :: post), v. split; auto. split; auto. exact (stuck_full _ _ St).
Qed.
