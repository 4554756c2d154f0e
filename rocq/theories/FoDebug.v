(** The factor oracle built with assertions on: the assertions hold as long as the list of free slots is not empty when a base is sought, and then one of them fails. *)
From Coq Require Import List NArith ZArith Arith Bool Lia Permutation.
From Verif Require Import Base FoModel FoRing FoFree FoArray FoOracle FoProof FoWitness FoDebugModel.
Import ListNotations.
Local Open Scope nat_scope.

Lemma set_next_d_eq : forall st q R x v, Free st q R -> x < 256 * q -> ut_at st x = false -> set_next_d st x v = set_next st x v.
Proof. intros st q R x v F Hx Hu. unfold set_next_d. rewrite (lget_nth _ (fb_ut st) x false) by (rewrite (fr_ut _ _ _ F); auto). cbn [bind]. rewrite Hu. reflexivity. Qed.
Lemma next_in : forall st q R y, Free st q R -> In y R -> exists n, next_at st y = Some n /\ In n R.
Proof.
  intros st q R y F I. apply in_split in I. destruct I as (l1 & l2 & ->). pose proof (Free_rotate _ _ _ _ F) as F'. pose proof (fr_ring _ _ _ F') as Rg. cbn [app ring] in Rg.
  assert (G : exists n, next_at st y = Some n /\ In n (y :: l2 ++ l1)).
  { destruct (l2 ++ l1) as [|g l]; cbn [chain] in Rg; [exists y; split; [apply Rg|now left]|exists g; split; [apply Rg|right; now left]]. }
  destruct G as (n & G1 & G2). exists n. split; auto. apply in_app_iff. destruct G2 as [->|G2]; [right; now left|]. apply in_app_iff in G2. destruct G2; [right; now right|now left].
Qed.
Lemma find_loop_d_eq : forall fuel c0 ts st q R i, Free st q R -> In (fb_front st) R -> In i R -> find_loop_d fuel c0 ts st i = find_loop fuel c0 ts st i.
Proof.
  induction fuel as [|fuel IH]; intros c0 ts st q R i F Hf Hi; [reflexivity|]. cbn [find_loop_d find_loop]. destruct (fr_in _ _ _ F _ Hi) as (Li & Ui). rewrite (lget_nth _ (fb_ut st) i false) by (rewrite (fr_ut _ _ _ F); auto). cbn [bind]. rewrite Ui. cbn [negb assert_that bind].
  destruct (lget (fb_us st) (slot i c0)) as [us| | |]; auto. cbn [bind]. destruct (if us then _ else _) as [ok| | |]; auto. cbn [bind]. destruct ok; auto.
  destruct (next_in _ _ _ _ F Hi) as (n & En & In_). rewrite (lget_nth _ (fb_next st) i None) by (rewrite (fr_nx _ _ _ F); auto). cbn [bind]. rewrite En. cbn [some_id bind]. destruct (Nat.eqb_spec n (fb_front st)) as [->|Nn]; cbn [bind].
  - destruct (Free_at _ _ _ _ F Hf) as (l & F0 & Ll).
    assert (Hl : In i (fb_front st :: l)).
    { destruct (in_dec Nat.eq_dec i (fb_front st :: l)) as [|C]; auto. exfalso. destruct (fr_in _ _ _ F _ Hi) as (_ & U). destruct (next_in _ _ _ _ F Hi) as (n' & En' & _). rewrite (fr_out _ _ _ F0 i Li U C) in En. discriminate. }
    destruct (expand_ok st q _ F0 ltac:(right; eauto) ltac:(left; discriminate)) as (st1 & E1 & C1 & B1 & S1 & U1 & Fr1 & F1 & N1 & N2). rewrite E1. cbn [bind]. rewrite (lget_nth _ (fb_next st1) i None) by (rewrite (fr_nx _ _ _ F1); lia). cbn [bind]. rewrite (N2 i Hl En). cbn [some_id bind].
    apply (IH c0 ts st1 (S q) _ _ F1); [rewrite Fr1; now left|]. apply in_app_iff. right. apply in_seq. lia.
  - rewrite (lget_nth _ (fb_next st) i None) by (rewrite (fr_nx _ _ _ F); auto). cbn [bind]. rewrite En. cbn [some_id bind]. eapply IH; eauto.
Qed.

(** a run [r], by fuel, and the run [d] with assertions: both end with the same result, or [d] fails an assertion and [r] never ends *)
Definition lasts {A} (r : nat -> res A) (fuel : nat) (d : res A) : Prop :=
  (exists a, d = Ok a /\ r fuel = Ok a /\ forall f, r f = Fuel \/ r f = Ok a) \/ (d = Throw /\ forall f, r f = Fuel).
Lemma lasts_bind : forall A B (r : nat -> res A) fuel d (k : A -> nat -> res B) (kd : A -> res B), lasts r fuel d -> (forall a, r fuel = Ok a -> lasts (k a) fuel (kd a)) -> lasts (fun f => bind (r f) (fun a => k a f)) fuel (bind d kd).
Proof.
  intros A B r fuel d k kd [(a & Ed & Er & Hr)|(Ed & Hr)] Hk; rewrite Ed.
  - cbn [bind]. destruct (Hk a Er) as [(b & Ek & Eb & Hb)|(Ek & Hb)].
    + left. exists b. split; auto. rewrite Er. split; auto. intros f. destruct (Hr f) as [Q|Q]; rewrite Q; [left; reflexivity|apply Hb].
    + right. split; auto. intros f. destruct (Hr f) as [Q|Q]; rewrite Q; [reflexivity|apply Hb].
  - right. split; auto. intros f. rewrite Hr. reflexivity.
Qed.
Lemma lasts_ret : forall A (a : A) fuel, lasts (fun _ => Ok a) fuel (Ok a).
Proof. intros A a fuel. left. exists a. auto. Qed.
Lemma lasts_const : forall A (x d : res A) a fuel, x = Ok a -> d = Ok a -> lasts (fun _ => x) fuel d.
Proof. intros A x d a fuel -> ->. apply lasts_ret. Qed.

Section D.
Variable ck : list N.
Hypothesis Hck : forall i, i < length ck -> (0 < nth i ck 0 < 256)%N.
Let m := length ck.

Lemma find_base_lasts : forall fuel st q R ts t0 l, Free st q R -> fb_check st = ck -> ts = t0 :: l -> Forall (valid ck) ts -> 1 <= q -> ut_at st 0 = true -> next_at st 0 = Some 0 -> length R < fuel ->
  lasts (fun f => find_base f st ts) fuel (find_base_d fuel st ts).
Proof.
  intros fuel st q R ts t0 l F Ec Et V Hq U0 N0 Hf. assert (Vt : valid ck t0) by (rewrite Et in V; now inversion V). destruct R as [|r R].
  - right. split; [|intros f; apply (find_empty ck (Hck' ck Hck) f st q ts t0 l); auto]. unfold find_base_d. rewrite Et. cbn [lget nth_error bind]. rewrite Ec, check_ok by auto. cbn [bind]. assert (Ef : fb_front st = 0) by (destruct (fr_front _ _ _ F) as [[]|(_ & Q)]; auto). rewrite Ef. destruct fuel as [|fuel]; [lia|]. cbn [find_loop_d]. rewrite (lget_nth _ (fb_ut st) 0 false) by (rewrite (fr_ut _ _ _ F); lia). cbn [bind]. rewrite U0. reflexivity.
  - destruct (find_base_ok ck (Hck' ck Hck) fuel st q (r :: R) ts t0 l F Ec Et V Hq U0 N0) as [(E1 & [C|C])|(st1 & q1 & R1 & b & E1 & _)]; [discriminate|lia|]. left. exists (st1, b). destruct (fr_front _ _ _ F) as [Fr|(C & _)]; [|discriminate]. split; [|split; auto].
    + rewrite <- E1. unfold find_base_d, find_base. destruct (lget ts 0) as [t| | |]; auto. cbn [bind]. destruct (fo_check (fb_check st) t) as [c0| | |]; auto. cbn [bind]. now apply (find_loop_d_eq _ _ _ _ q (r :: R)).
    + intros f. destruct (find_base_ok ck (Hck' ck Hck) f st q (r :: R) ts t0 l F Ec Et V Hq U0 N0) as [(E2 & _)|(st2 & q2 & R2 & b2 & E2 & _)]; [auto|right]. rewrite E2. pose proof (find_base_mono fuel (Nat.max fuel f) _ _ _ (Nat.le_max_l _ _) E1). pose proof (find_base_mono f (Nat.max fuel f) _ _ _ (Nat.le_max_r _ _) E2). congruence.
Qed.
Lemma moves_d_eq : forall todo st q R log s b nb n done, Moving ck st q R log s b nb n done todo -> Forall (valid ck) todo -> NoDup todo -> b < 256 * q -> nb < 256 * q -> b <> nb -> (forall t, In t todo -> chk ck t <> chk ck n) ->
  (forall s' b', s' <> s -> base_at st s' = Some b' -> b' <> b) -> foldM (move_trans_d b nb) todo st = foldM (move_trans b nb) todo st.
Proof.
  induction todo as [|t todo IH]; intros st q R log s b nb n done M V ND Lb Lnb Nb Nn Fresh; [reflexivity|].
  destruct (move_ok ck Hck st q R log s b nb n done t todo M V ND Lb Lnb Nb) as (st1 & R1 & E1 & M1 & B1 & U1 & L1); auto; [apply Nn; now left|]. cbn [foldM].
  assert (Ed : move_trans_d b nb st t = move_trans b nb st t).
  { unfold move_trans_d, move_trans. pose proof (mv_free _ _ _ _ _ _ _ _ _ _ _ M) as F. inversion V as [|? ? Vt V']; subst. pose proof (chk_pos ck Hck t Vt) as Ht. rewrite (mv_ck _ _ _ _ _ _ _ _ _ _ _ M), check_ok by auto. cbn [bind].
    destruct (mv_todo _ _ _ _ _ _ _ _ _ _ _ M t (or_introl eq_refl)) as (T1 & T2 & T3). assert (Lo : slot b (chk ck t) < 256 * q) by (apply slot_lt; tauto). assert (Lx : slot nb (chk ck t) < 256 * q) by (apply slot_lt; tauto).
    rewrite (lget_nth _ (fb_ut st) _ false) by (rewrite (fr_ut _ _ _ F); auto). cbn [bind]. rewrite T1. cbn [assert_that bind]. rewrite lset_Ok by (rewrite (fr_nx _ _ _ F); auto). cbn [bind]. rewrite lset_Ok by (rewrite (fr_ut _ _ _ F); auto). cbn [bind].
    pose proof (Free_drop st q R _ F Lo T1) as F1. rewrite (mv_ck _ _ _ _ _ _ _ _ _ _ _ M) in F1. apply (set_next_d_eq _ q R _ _ F1 Lx). cbn [fb_ut]. rewrite nth_upd. destruct (_ && _); auto. }
  rewrite Ed, E1. cbn [bind]. inversion V; subst. apply NoDup_cons_iff in ND. apply (IH st1 q R1 log s b nb n (t :: done) M1); auto; try tauto.
  - intros; apply Nn. now right.
  - intros s' b'. rewrite B1. apply Fresh.
Qed.
Lemma insert_lasts : forall fuel st q R log s n, Arr ck st q R log -> s < n -> valid ck n -> (forall t, In (s, t) log -> chk ck t <> chk ck n) -> length R < fuel ->
  lasts (fun f => insert_trans f st s n) fuel (insert_trans_d fuel st s n).
Proof.
  intros fuel st q R log s n A Ls Vn Nw Hf. pose proof A as [F Ec Hq (U0 & N0) Bl Ba Inj Ed Own Ct]. assert (Hs : s < m) by (destruct Vn; unfold m; lia). pose proof (chk_pos ck Hck n Vn) as Hn.
  unfold insert_trans, insert_trans_d. rewrite Ec, check_ok by auto. cbn [bind]. rewrite (lget_nth _ (fb_base st) s None) by (fold m in Bl; lia). cbn [bind]. destruct (base_at st s) as [b|] eqn:Eb.
  - destruct (Ba s b Eb) as (_ & Lb & Ub). assert (Sl : slot b (chk ck n) < 256 * q) by (apply slot_lt; tauto). rewrite (lget_nth _ (fb_ut st) _ false) by (rewrite (fr_ut _ _ _ F); auto). cbn [bind]. destruct (ut_at st (slot b (chk ck n))) eqn:Ux.
    + destruct (get_transes_ok ck Hck st q R log s b A Eb) as (ts & Et & NDt & Ht). rewrite Et. cbn [bind].
      assert (Vts : Forall (valid ck) ts) by (apply Forall_forall; intros t It; apply Ht in It; apply (Ed s t It)).
      assert (Vall : Forall (valid ck) (ts ++ [n])) by (apply Forall_app; split; auto).
      assert (Hd : exists t0 l, ts ++ [n] = t0 :: l) by (destruct ts; simpl; eauto). destruct Hd as (t0 & l & Hd).
      apply lasts_bind; [apply (find_base_lasts fuel st q R _ t0 l); auto|]. intros (st1' & nb') E1.
      destruct (find_base_ok ck (Hck' ck Hck) fuel st q R (ts ++ [n]) t0 l F Ec Hd Vall Hq U0 N0) as [(E1' & _)|(st1 & q1 & R1 & nb & E1' & F1 & G1 & (Lnb & Unb & Pl) & Lr)]; [congruence|]. assert (Q : (st1', nb') = (st1, nb)) by congruence. injection Q as -> ->. clear E1'.
      pose proof (Arr_grown ck Hck _ _ _ _ _ _ _ A G1 F1 Lr) as A1. pose proof A1 as [_ Ec1 Hq1 (U01 & N01) Bl1 Ba1 Inj1 Ed1 Own1 Ct1]. pose proof G1 as (G1c & G1b & G1s & G1t & G1n & G1q).
      assert (Eb1 : base_at st1 s = Some b) by (rewrite G1b; auto). destruct (Ba1 s b Eb1) as (_ & Lb1 & Ub1). assert (Nnb : b <> nb) by congruence.
      unfold set_us. rewrite lset_Ok by (rewrite (fr_us _ _ _ F1); auto). cbn [bind fb_us]. rewrite lset_Ok by (rewrite upd_length, (fr_us _ _ _ F1); auto). cbn [bind]. unfold set_base. cbn [fb_base]. rewrite lset_Ok by (rewrite Bl1; fold m; lia). cbn [bind fb_check fb_base fb_us fb_ut fb_next fb_prev fb_front].
      pose proof (Free_base _ _ _ (upd (fb_base st1) s (Some nb)) (Free_us _ _ _ nb true (Free_us _ _ _ b false F1))) as F2. cbn [fb_check fb_base fb_us fb_ut fb_next fb_prev fb_front] in F2.
      set (st2 := {| fb_check := fb_check st1; fb_base := _ |}) in *.
      assert (Bs : forall s', base_at st2 s' = if s' =? s then Some nb else base_at st1 s') by (intros s'; unfold st2; cbn [fb_base]; rewrite nth_upd, (proj2 (Nat.ltb_lt s _)) by (rewrite Bl1; fold m; lia); now rewrite andb_true_r).
      assert (M2 : Moving ck st2 q1 R1 log s b nb n [] ts).
      { constructor; auto; try solve [intros t []].
        - intros s' t b' I Ns E. rewrite Bs, (proj2 (Nat.eqb_neq _ _)) in E by auto. destruct (Ed1 s' t I) as (_ & _ & b2 & E2 & E3). assert (b2 = b') by congruence. subst b2. exact E3.
        - intros t I. apply Ht in I as I'. destruct (Ed1 s t I') as (_ & _ & b2 & E2 & E3 & E4). assert (b2 = b) by congruence. subst b2. split; auto. split; auto. apply Pl. apply in_app_iff. auto.
        - apply Pl. apply in_app_iff. right. now left.
        - intros x Uy. destruct (Own1 x Uy) as [E|(s' & t & b' & I & E2 & E3)]; auto. destruct (Nat.eq_dec s' s) as [->|Ns].
          + right. right. right. exists t. split; [now apply Ht|]. congruence.
          + right. left. exists s', t, b'. split; auto. split; auto. split; auto. rewrite Bs, (proj2 (Nat.eqb_neq _ _)) by auto. auto. }
      assert (Nn : forall t, In t ts -> chk ck t <> chk ck n) by (intros t It; apply Nw; now apply Ht).
      assert (Fr : forall s' b', s' <> s -> base_at st2 s' = Some b' -> b' <> b) by (intros s' b' Ns E; rewrite Bs, (proj2 (Nat.eqb_neq _ _)) in E by auto; intros ->; apply Ns; eapply Inj1; eauto).
      rewrite (moves_d_eq ts st2 q1 R1 log s b nb n []) by auto. destruct (moves_ok ck Hck ts st2 q1 R1 log s b nb n [] M2) as (st3 & R3 & d3 & E3 & M3 & D3 & B3 & U3 & L3); auto.
      rewrite E3. cbn [bind]. pose proof M3 as [F3 Ec3 (U03 & N03) Ot3 Dn3 _ Nw3 Ow3]. assert (Sn : slot nb (chk ck n) < 256 * q1) by (apply slot_lt; tauto).
      destruct (set_next_ok st3 q1 R3 (slot nb (chk ck n)) n F3) as (st4 & E4 & _); auto. apply (lasts_const _ _ _ st4); auto. rewrite (set_next_d_eq _ q1 R3); auto.
    + destruct (set_next_ok st q R (slot b (chk ck n)) n F Sl Ux) as (st' & E' & _). apply (lasts_const _ _ _ st'); auto. rewrite (set_next_d_eq _ q R); auto.
  - apply lasts_bind; [apply (find_base_lasts fuel st q R _ n []); auto|]. intros (st1' & nb') E1.
    destruct (find_base_ok ck (Hck' ck Hck) fuel st q R [n] n [] F Ec eq_refl ltac:(repeat constructor; apply Vn) Hq U0 N0) as [(E1' & _)|(st1 & q1 & R1 & nb & E1' & F1 & G1 & (Lnb & Unb & Pl) & Lr)]; [congruence|]. assert (Q : (st1', nb') = (st1, nb)) by congruence. injection Q as -> ->. clear E1'.
    pose proof (Arr_grown ck Hck _ _ _ _ _ _ _ A G1 F1 Lr) as A1. pose proof (ar_bl _ _ _ _ _ A1) as Bl1. fold m in Bl1.
    unfold set_base. rewrite lset_Ok by lia. cbn [bind]. pose proof (Free_base _ _ _ (upd (fb_base st1) s (Some nb)) F1) as F2. set (st2 := {| fb_check := fb_check st1; fb_base := _ |}) in *.
    assert (Sl : slot nb (chk ck n) < 256 * q1) by (apply slot_lt; tauto). assert (Un : ut_at st2 (slot nb (chk ck n)) = false) by (apply (Pl n); now left).
    rewrite (set_next_d_eq st2 q1 R1) by auto.
    destruct (set_next_ok st2 q1 R1 (slot nb (chk ck n)) n F2 Sl Un) as (st3 & E3 & C3 & Ba3 & Us3 & Ut3 & Nx3 & Nk3 & R3 & F3 & L3). rewrite E3. cbn [bind]. unfold set_us. rewrite lset_Ok by (rewrite Us3; unfold st2; cbn [fb_us]; rewrite (fr_us _ _ _ F1); auto). cbn [bind]. apply lasts_ret.
Qed.

Lemma ring_le : forall st q R, Free st q R -> length R <= 256 * q.
Proof. intros st q R F. rewrite <- (seq_length (256 * q) 0). apply NoDup_incl_length; [apply (fr_nodup _ _ _ F)|]. intros y Hy. apply (fr_in _ _ _ F) in Hy. apply in_seq. lia. Qed.
Lemma walk_lasts : forall q0 fuel i lrs log0, i < m -> (forall j, 1 <= j <= i -> nth j lrs 0 < j) -> nth 0 lrs 0 = i + 1 -> length lrs = m + 1 -> 256 * (q0 + m) < fuel ->
  forall steps st q R log k, Arr ck st q R log -> Walk ck i lrs log0 log k -> 1 <= steps -> (k <= i -> k + 2 <= steps) -> q0 <= q <= q0 + length log ->
  lasts (fun f => fo_walk steps f lrs st k (i + 1)) fuel (fo_walk_d steps fuel lrs st k (i + 1)).
Proof.
  intros q0 fuel i lrs log0 Hi Hlt H0 Hl Hf. induction steps as [|steps IH]; intros st q R log k A W Hs Hk Hq; [lia|]. cbn [fo_walk fo_walk_d].
  destruct (Nat.ltb_spec k (i + 1)) as [Lk|Lk]; [|apply lasts_ret].
  assert (Vn : FoFree.valid ck (i + 1)) by (split; fold m; lia). assert (Km : k < length ck) by (fold m; lia).
  destruct (transition_ok ck Hck st q R log k (i + 1) A Km Vn) as (r & Er & Hr). rewrite Er. cbn [bind]. destruct (Nat.eqb_spec r 0) as [->|Nr]; [|apply lasts_ret].
  assert (Hr' : chk ck (k + 1) <> chk ck (i + 1) /\ forall t, In (k, t) log -> chk ck t <> chk ck (i + 1)).
  { destruct Hr as [(_ & C)|(Hc & [(I & _)|(_ & I)])]; [lia| |split; auto]. destruct (ar_edge _ _ _ _ _ A _ _ I) as (C & _). lia. }
  clear Hr. destruct Hr' as (Hc & Hn). destruct (depth_ex ck Hck lrs i Hlt k ltac:(lia)) as (d & Hd). pose proof (wk_count _ _ _ _ _ _ W d Hd ltac:(lia)) as Cn.
  pose proof (ring_le _ _ _ (ar_free _ _ _ _ _ A)) as LR. assert (Lq : length R < fuel) by (fold m in Cn; nia).
  apply lasts_bind; [apply (insert_lasts fuel st q R log); auto; lia|]. intros st1 E1.
  destruct (insert_ok ck Hck fuel st q R log k (i + 1) A ltac:(lia) Vn Hn) as [(E & C)|(st' & q' & R' & E & A' & Q')]; [congruence|]. assert (st1 = st') by congruence. subst st1.
  rewrite (lget_nth _ lrs k 0) by lia. cbn [bind]. apply (IH st' q' R' ((k, i + 1) :: log)); auto; [|lia| |cbn [length]; lia].
  - apply walk_step; auto. lia.
  - intros Ln. destruct k as [|k]; [lia|]. specialize (Hlt (S k) ltac:(lia)). lia.
Qed.
Lemma letter_lasts : forall q0 fuel i lrs st q R log, i < m -> Arr ck st q R log -> Inv ck i lrs log -> q0 <= q <= q0 + length log -> 256 * (q0 + m) < fuel ->
  lasts (fun f => fo_letter f (st, lrs) i) fuel (fo_letter_d fuel (st, lrs) i).
Proof.
  intros q0 fuel i lrs st q R log Hi A I Hq Hf. pose proof (iv_len _ _ _ _ I) as Ll. fold m in Ll. pose proof (walk_start ck Hck i lrs log I Hi) as W. unfold fo_letter, fo_letter_d. rewrite lset_Ok by lia. cbn [bind]. set (L := upd lrs 0 (i + 1)) in *. assert (LL : length L = m + 1) by (unfold L; rewrite upd_length; auto). rewrite (lget_nth _ L i 0) by lia. cbn [bind].
  assert (Hlt : forall j, 1 <= j <= i -> nth j L 0 < j) by (intros j Hj; unfold L; rewrite nth_upd, (proj2 (Nat.eqb_neq j 0)) by lia; apply (iv_lt _ _ _ _ I j Hj)).
  assert (H0 : nth 0 L 0 = i + 1) by (unfold L; rewrite nth_upd; cbn [Nat.eqb andb]; rewrite (proj2 (Nat.ltb_lt _ _)) by lia; reflexivity).
  apply lasts_bind; [apply (walk_lasts q0 fuel i L log Hi Hlt H0 LL Hf (i + 3) st q R log (nth i L 0) A W); try lia|].
  intros (st1 & k1) E1. destruct (walk_ok ck Hck q0 fuel i L log Hi Hlt H0 LL (i + 3) st q R log (nth i L 0) A W ltac:(lia) ltac:(lia) Hq) as [(E & C)|(st' & k & q' & R' & log' & r & E & A' & W' & Q' & Er & Hr)]; [congruence|]. assert (Q : (st1, k1) = (st', k)) by congruence. injection Q as -> ->.
  rewrite Er. cbn [bind]. rewrite lset_Ok by lia. cbn [bind]. apply lasts_ret.
Qed.
Lemma letters_lasts : forall q0 fuel st q R, Arr ck st q R [] -> q0 <= q <= q0 -> 256 * (q0 + m) < fuel -> forall i, i <= m ->
  lasts (fun f => foldM (fo_letter f) (seq 0 i) (st, repeat 0 (m + 1))) fuel (foldM (fo_letter_d fuel) (seq 0 i) (st, repeat 0 (m + 1))).
Proof.
  intros q0 fuel st q R A Hq Hf. induction i as [|i IH]; intros Hi; [apply lasts_ret|]. specialize (IH ltac:(lia)).
  assert (G : lasts (fun f => do r <- foldM (fo_letter f) (seq 0 i) (st, repeat 0 (m + 1)); fo_letter f r i) fuel (do r <- foldM (fo_letter_d fuel) (seq 0 i) (st, repeat 0 (m + 1)); fo_letter_d fuel r i)).
  { apply lasts_bind with (k := fun r f => fo_letter f r i); auto. intros (st1' & L1') E1. destruct (letters_ok ck Hck q0 fuel st q R A Hq i ltac:(lia)) as [(E & C)|(st1 & L1 & q1 & R1 & log1 & E & A1 & I1 & Q1)]; [fold m in E; congruence|]. fold m in E. assert (Q : (st1', L1') = (st1, L1)) by congruence. injection Q as -> ->. eapply letter_lasts; eauto. }
  assert (Ea : forall (g : fob * list nat -> nat -> res (fob * list nat)) s0, foldM g (seq 0 (S i)) s0 = do r <- foldM g (seq 0 i) s0; g r i).
  { intros g s0. rewrite seq_S, foldM_app. destruct (foldM g (seq 0 i) s0) as [r| | |]; auto. cbn [bind foldM plus]. destruct (g r i); reflexivity. }
  rewrite Ea. destruct G as [(a & G1 & G2 & G3)|(G1 & G2)]; [left; exists a; split; auto; split; [rewrite Ea; auto|intros f; rewrite Ea; auto]|right; split; auto; intros f; rewrite Ea; auto].
Qed.
Theorem build_lasts : forall fuel, 1 <= m -> 256 * (m + m) + 256 < fuel -> lasts (fun f => fo_build f ck) fuel (fo_build_d fuel ck).
Proof.
  intros fuel Hm Hf. destruct (start_ok ck Hck Hm) as (st & q0 & R & E & A & Hq). unfold fo_build, fo_build_d. fold m. fold m in E, Hq.
  apply bind_Ok_inv in E. destruct E as (st0 & E0 & E1). rewrite E0. cbn [bind].
  assert (Ed : set_next_d st0 0 0 = Ok st).
  { destruct (grow_ok ck Hck m (fo_init ck) 0 eq_refl eq_refl eq_refl eq_refl eq_refl) as (st0' & q & E & Ec & Eb & Et & F & Hq'); fold m; try lia.
    - constructor; simpl; auto; try constructor; auto; try (intros y []; fail); intros; lia.
    - assert (st0' = st0) by congruence. subst st0'. rewrite (set_next_d_eq st0 q _ 0 0 F); auto; [lia|]. rewrite Et. destruct (256 * q); reflexivity. }
  rewrite E1, Ed. cbn [bind]. apply lasts_bind with (k := fun r _ => _); [apply (letters_lasts q0 fuel st q0 R A); auto; lia|]. intros r _. apply lasts_ret.
Qed.
End D.

(** ** the claim *)
Theorem debug_build : forall text, text <> [] -> nonzero_bytes text -> exists enough, forall fuel, enough <= fuel ->
  (exists o, fo_build fuel text = Ok o /\ fo_build_d fuel text = Ok o) \/ (fo_build_d fuel text = Throw /\ forall f, fo_build f text = Fuel).
Proof.
  intros text Hn Hb. exists (256 * (length text + length text) + 257). intros fuel Hf.
  destruct (build_lasts text (nonzero_nth _ Hb) fuel) as [(o & E1 & E2 & _)|(E1 & E2)]; [destruct text; [congruence|cbn [length]; lia]|lia|left; eauto|right; auto].
Qed.
Theorem debug_iff : forall text, text <> [] -> nonzero_bytes text -> exists enough, forall fuel, enough <= fuel ->
  (fo_build_d fuel text = Throw <-> forall f, fo_build f text = Fuel) /\ (forall o, fo_build_d fuel text = Ok o <-> exists f, fo_build f text = Ok o).
Proof.
  intros text Hn Hb. destruct (debug_build text Hn Hb) as (n & H). exists n. intros fuel Hf. destruct (H fuel Hf) as [(o & E1 & E2)|(E1 & E2)].
  - split; [split; intros Q; [congruence|rewrite Q in E1; discriminate]|]. intros o'. rewrite E2. split; [intros Q; injection Q as <-; eauto|]. intros (f & Ef). pose proof (build_mono fuel (Nat.max fuel f) _ _ (Nat.le_max_l _ _) E1). pose proof (build_mono f (Nat.max fuel f) _ _ (Nat.le_max_r _ _) Ef). congruence.
  - split; [split; auto|]. intros o. rewrite E1. split; [discriminate|]. intros (f & Ef). rewrite E2 in Ef. discriminate.
Qed.
Lemma w80_asserts : exists n, forall fuel, n <= fuel -> fo_build_d fuel w80 = Throw.
Proof. destruct (debug_iff w80 ltac:(discriminate) w80_bytes) as (n & H). exists n. intros fuel Hf. apply (H fuel Hf). exact w80_diverges. Qed.
