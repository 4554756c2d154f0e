(** The double array of the factor oracle builder represents the edges inserted so far. *)
From Coq Require Import List NArith ZArith Arith Bool Lia Permutation.
From Verif Require Import Base FoModel FoRing FoFree.
Import ListNotations.
Local Open Scope nat_scope.

Notation base_at st s := (nth s (fb_base st) None).
Definition count_src (s : nat) (log : list (nat * nat)) : nat := length (filter (fun e => fst e =? s) log).
(** slots taken from the ring, at most: the k-th edge of a state moves the k - 1 earlier ones *)
Fixpoint cost (log : list (nat * nat)) : nat := match log with [] => 0 | e :: l => cost l + (1 + count_src (fst e) l) end.

Section Arr.
Variable ck : list N.
Hypothesis Hck : forall i, i < length ck -> (0 < nth i ck 0 < 256)%N.
Let m := length ck.
Let chk := chk ck.
Let valid := valid ck.
Lemma Hck' : forall i, i < length ck -> (nth i ck 0 < 256)%N.
Proof. intros i Hi. now apply Hck. Qed.
Lemma chk_pos : forall t, valid t -> (0 < chk t < 256)%N.
Proof. intros t (H1 & H2). apply Hck. lia. Qed.

Record Arr (st : fob) (q : nat) (R : list nat) (log : list (nat * nat)) : Prop := {
  ar_free : Free st q R;
  ar_ck : fb_check st = ck;
  ar_q : 1 <= q;
  ar_0 : ut_at st 0 = true /\ next_at st 0 = Some 0;
  ar_bl : length (fb_base st) = m + 1;
  ar_base : forall s b, base_at st s = Some b -> s < m /\ b < 256 * q /\ us_at st b = true;
  ar_inj : forall s s' b, base_at st s = Some b -> base_at st s' = Some b -> s = s';
  ar_edge : forall s t, In (s, t) log -> s < t /\ valid t /\ exists b, base_at st s = Some b /\ ut_at st (slot b (chk t)) = true /\ next_at st (slot b (chk t)) = Some t;
  ar_own : forall x, ut_at st x = true -> x = 0 \/ exists s t b, In (s, t) log /\ base_at st s = Some b /\ x = slot b (chk t);
  ar_count : 256 * q <= length R + cost log + 1 }.

(** the edge of s with the character of n, found by way of its slot *)
Lemma slot_edge : forall st q R log s b n, Arr st q R log -> base_at st s = Some b -> ut_at st (slot b (chk n)) = true ->
  (next_at st (slot b (chk n)) = Some 0 /\ forall t, In (s, t) log -> chk t <> chk n) \/
  exists t', 1 <= t' /\ valid t' /\ next_at st (slot b (chk n)) = Some t' /\ (chk t' = chk n -> In (s, t') log) /\ (chk t' <> chk n -> forall t, In (s, t) log -> chk t <> chk n).
Proof.
  intros st q R log s b n A Eb U. assert (Ed : forall t, In (s, t) log -> chk t = chk n -> next_at st (slot b (chk n)) = Some t /\ 1 <= t).
  { intros t It Et. destruct (ar_edge _ _ _ _ A _ _ It) as (Lt & V & b' & Eb' & _ & Nx). assert (b' = b) by congruence. subst b'. rewrite <- Et. split; [auto|apply V]. }
  destruct (ar_own _ _ _ _ A _ U) as [E0|(s' & t' & b' & I & Eb' & Ex)].
  - left. rewrite E0. split; [apply (ar_0 _ _ _ _ A)|]. intros t It Et. destruct (Ed t It Et) as (C & L). rewrite E0, (proj2 (ar_0 _ _ _ _ A)) in C. injection C. lia.
  - right. destruct (ar_edge _ _ _ _ A _ _ I) as (Lt & V & b2 & Eb2 & _ & Nx). assert (b2 = b') by congruence. subst b2. rewrite <- Ex in Nx. exists t'. split; [apply V|]. split; auto. split; auto. split.
    + intros Ec. rewrite Ec in Ex. apply slot_inj in Ex. subst b'. assert (s = s') by (eapply ar_inj; eauto). now subst.
    + intros Nc t It Et. destruct (Ed t It Et) as (C & _). rewrite Nx in C. injection C as ->. auto.
Qed.
Lemma transition_ok : forall st q R log s n, Arr st q R log -> s < m -> valid n ->
  exists r, fo_transition st s n = Ok r /\
    ((chk (s + 1) = chk n /\ r = s + 1) \/ (chk (s + 1) <> chk n /\ ((In (s, r) log /\ chk r = chk n) \/ (r = 0 /\ forall t, In (s, t) log -> chk t <> chk n)))).
Proof.
  intros st q R log s n A Hs Vn. pose proof (ar_free _ _ _ _ A) as F. unfold fo_transition. rewrite (ar_ck _ _ _ _ A). rewrite (check_ok ck (s + 1)) by (split; fold m; lia). cbn [bind]. rewrite (check_ok ck n) by auto. cbn [bind]. fold chk.
  destruct (N.eqb_spec (chk (s + 1)) (chk n)) as [E|E]; [exists (s + 1); auto|]. pose proof (ar_bl _ _ _ _ A) as Lb. rewrite (lget_nth _ (fb_base st) s None) by lia. cbn [bind]. destruct (base_at st s) as [b|] eqn:Eb.
  - destruct (ar_base _ _ _ _ A _ _ Eb) as (_ & Lb' & _). pose proof (slot_lt b (chk n) q (proj2 (chk_pos n Vn)) Lb') as Sl. rewrite (lget_nth _ (fb_ut st) _ false) by (rewrite (fr_ut _ _ _ F); auto). cbn [bind]. destruct (ut_at st (slot b (chk n))) eqn:U; cbn [negb].
    + rewrite (lget_nth _ (fb_next st) _ None) by (rewrite (fr_nx _ _ _ F); auto). cbn [bind]. destruct (slot_edge st q R log s b n A Eb U) as [(Nx & H)|(t' & L' & V' & Nx & H1 & H2)]; rewrite Nx; cbn [some_id bind].
      * cbn [Nat.eqb]. exists 0. split; auto.
      * rewrite (proj2 (Nat.eqb_neq _ _)) by lia. rewrite check_ok by auto. cbn [bind]. fold chk. destruct (N.eqb_spec (chk t') (chk n)) as [Et|Et]; [exists t'|exists 0]; (split; [reflexivity|]); right; (split; [exact E|]); [left|right]; split; auto.
    + exists 0. split; auto. right. split; auto. right. split; auto. intros t It Et. destruct (ar_edge _ _ _ _ A _ _ It) as (_ & _ & b' & Eb' & U' & _). assert (b' = b) by congruence. subst b'. rewrite Et in U'. congruence.
  - exists 0. split; auto. right. split; auto. right. split; auto. intros t It. destruct (ar_edge _ _ _ _ A _ _ It) as (_ & _ & b' & Eb' & _). congruence.
Qed.

(** ** get_transes *)
Lemma get_transes_ok : forall st q R log s b, Arr st q R log -> base_at st s = Some b -> exists ts, get_transes st s = Ok ts /\ NoDup ts /\ forall t, In t ts <-> In (s, t) log.
Proof.
  intros st q R log s b A Eb. pose proof (ar_free _ _ _ _ A) as F. destruct (ar_base _ _ _ _ A _ _ Eb) as (Hs & Lb' & _). unfold get_transes. rewrite (lget_nth _ (fb_base st) s None) by (rewrite (ar_bl _ _ _ _ A); lia). cbn [bind]. rewrite Eb.
  set (f := fun ts c => _).
  assert (G : forall k, k <= 255 -> exists ts, foldM f (seq 1 k) [] = Ok ts /\ NoDup ts /\ forall t, In t ts <-> In (s, t) log /\ (chk t <= N.of_nat k)%N).
  { induction k as [|k IH]; intros Hk.
    - exists []. split; auto. split; [constructor|]. intros t. split; [intros []|]. intros (It & C). destruct (ar_edge _ _ _ _ A _ _ It) as (_ & V & _). pose proof (chk_pos t V). lia.
    - destruct (IH ltac:(lia)) as (ts & E & ND & H). rewrite seq_S, foldM_app, E. cbn [bind foldM]. replace (1 + k) with (S k) by lia. unfold f at 1. set (c := N.of_nat (S k)).
      assert (Hc : (c < 256)%N) by (unfold c; lia). pose proof (slot_lt b c q Hc Lb') as Sl. rewrite (lget_nth _ (fb_next st) _ None) by (rewrite (fr_nx _ _ _ F); auto). cbn [bind]. rewrite (lget_nth _ (fb_ut st) _ false) by (rewrite (fr_ut _ _ _ F); auto). cbn [bind].
      (* edges with this character *)
      assert (Ed : forall t, In (s, t) log -> chk t = c -> ut_at st (slot b c) = true /\ next_at st (slot b c) = Some t /\ 1 <= t).
      { intros t It Et. destruct (ar_edge _ _ _ _ A _ _ It) as (_ & V & b' & Eb' & U' & Nx). assert (b' = b) by congruence. subst b'. rewrite <- Et. split; auto. split; [auto|apply V]. }
      assert (Skip : (forall t, In (s, t) log -> chk t <> c) -> forall t, In t ts <-> In (s, t) log /\ (chk t <= c)%N).
      { intros Nc t. rewrite H. split; intros (It & C); split; auto; unfold c in *; [lia|]. specialize (Nc t It). lia. }
      destruct (ut_at st (slot b c)) eqn:U.
      + destruct (ar_own _ _ _ _ A _ U) as [E0|(s' & t' & b' & I & Eb' & Ex)].
        * rewrite E0, (proj2 (ar_0 _ _ _ _ A)). cbn [bind]. exists ts. split; auto. split; auto. apply Skip. intros t It Et. destruct (Ed t It Et) as (_ & C & L). rewrite E0, (proj2 (ar_0 _ _ _ _ A)) in C. injection C. lia.
        * destruct (ar_edge _ _ _ _ A _ _ I) as (Lt & V & b2 & Eb2 & _ & Nx). assert (b2 = b') by congruence. subst b2. rewrite <- Ex in Nx. rewrite Nx. assert (1 <= t') by apply V. destruct t' as [|t'']; [lia|]. set (t' := S t'') in *. cbn [some_id bind]. rewrite (ar_ck _ _ _ _ A), check_ok by auto. cbn [bind]. fold chk.
          destruct (N.eqb_spec (chk t') c) as [Ec|Nc].
          -- assert (b' = b) by (rewrite Ec in Ex; apply slot_inj in Ex; auto). subst b'. assert (s' = s) by (eapply ar_inj; eauto). subst s'. exists (ts ++ [t']). split; auto. assert (Nt : ~ In t' ts) by (rewrite H; unfold c in *; lia). split.
             ++ apply (Permutation_NoDup (l := t' :: ts)); [apply Permutation_cons_append|constructor; auto].
             ++ intros t. rewrite in_app_iff, H. split.
                ** intros [(It & C)|[<-|[]]]; [split; auto; unfold c; lia|split; auto; lia].
                ** intros (It & C). destruct (N.eq_dec (chk t) c) as [Et|Nt']; [|left; split; auto; unfold c in *; lia]. right. left. destruct (Ed t It Et) as (_ & C' & _). congruence.
          -- exists ts. split; auto. split; auto. apply Skip. intros t It Et. destruct (Ed t It Et) as (_ & C & _). rewrite Nx in C. injection C as C. congruence.
      + cbn [bind]. exists ts. split; auto. split; auto. apply Skip. intros t It Et. destruct (Ed t It Et) as (C & _). congruence. }
  destruct (G 255 (le_n _)) as (ts & E & ND & H). exists ts. split; auto. split; auto. intros t. rewrite H. split; [tauto|]. intros It. split; auto. destruct (ar_edge _ _ _ _ A _ _ It) as (_ & V & _). pose proof (chk_pos t V). change (N.of_nat 255) with 255%N. lia.
Qed.
Lemma count_le : forall log s ts, NoDup ts -> (forall t, In t ts <-> In (s, t) log) -> length ts <= count_src s log.
Proof.
  intros log s ts ND H. unfold count_src. rewrite <- (map_length (fun t => (s, t)) ts). apply NoDup_incl_length.
  - apply FinFun.Injective_map_NoDup; auto. intros x y E. congruence.
  - intros e He. apply in_map_iff in He. destruct He as (t & <- & Ht). apply filter_In. split; [now apply H|]. simpl. apply Nat.eqb_refl.
Qed.

(** ** _insert_trans *)
(** free one slot *)
Lemma Free_drop : forall st q R o, Free st q R -> o < 256 * q -> ut_at st o = true ->
  Free {| fb_check := fb_check st; fb_base := fb_base st; fb_next := upd (fb_next st) o None; fb_front := fb_front st; fb_us := fb_us st; fb_ut := upd (fb_ut st) o false; fb_prev := fb_prev st |} q R.
Proof.
  intros st q R o [Ln Lp Ls Lt Rg ND In_ Out Fr] Ho Uo. assert (No : ~ In o R) by (intros C; apply In_ in C; destruct C; congruence). constructor; cbn [fb_check fb_base fb_us fb_ut fb_next fb_prev fb_front]; rewrite ?upd_length; auto.
  - destruct R as [|f l]; auto. simpl in *. apply (chain_ext (fb_next st) (fb_prev st)); auto. intros y Hy. rewrite nth_upd. rewrite (proj2 (Nat.eqb_neq y o)); auto. intros ->. apply No. exact Hy.
  - intros y Hy. split; [now apply In_|]. rewrite nth_upd. destruct ((y =? o) && _); auto. now apply In_.
  - intros y Ly Uy Ny. rewrite nth_upd. rewrite nth_upd in Uy. rewrite Ln. rewrite Lt in Uy. destruct ((y =? o) && _); auto.
Qed.
Lemma Free_us : forall st q R b v, Free st q R -> Free {| fb_check := fb_check st; fb_base := fb_base st; fb_next := fb_next st; fb_front := fb_front st; fb_us := upd (fb_us st) b v; fb_ut := fb_ut st; fb_prev := fb_prev st |} q R.
Proof. intros st q R b v [Ln Lp Ls Lt Rg ND In_ Out Fr]. constructor; cbn [fb_check fb_base fb_us fb_ut fb_next fb_prev fb_front]; rewrite ?upd_length; auto. Qed.
Lemma Free_base : forall st q R ba, Free st q R -> Free {| fb_check := fb_check st; fb_base := ba; fb_next := fb_next st; fb_front := fb_front st; fb_us := fb_us st; fb_ut := fb_ut st; fb_prev := fb_prev st |} q R.
Proof. intros st q R ba [Ln Lp Ls Lt Rg ND In_ Out Fr]. constructor; cbn [fb_check fb_base fb_us fb_ut fb_next fb_prev fb_front]; auto. Qed.
Lemma Arr_grown : forall st q R log st' q' R', Arr st q R log -> grown st st' q q' -> Free st' q' R' -> length R' = length R + 256 * (q' - q) -> Arr st' q' R' log.
Proof.
  intros st q R log st' q' R' [F Ec Hq (U0 & N0) Bl Ba Inj Ed Own Ct] (G1 & G2 & G3 & G4 & G5 & G6) F' Lr. constructor; auto; try congruence; try lia.
  - rewrite G4, G5; auto.
  - intros s b E. rewrite G2 in E. destruct (Ba s b E) as (B1 & B2 & B3). rewrite G3. split; auto. split; [lia|auto].
  - intros s s' b E E'. rewrite G2 in E, E'. eapply Inj; eauto.
  - intros s t I. destruct (Ed s t I) as (E1 & E2 & b & E3 & E4 & E5). split; auto. split; auto. exists b. rewrite G2, G4. split; auto. split; auto. rewrite G5; auto.
  - intros x U. rewrite G4 in U. rewrite G2. now apply Own.
Qed.
(** one more edge in a free slot *)
Lemma Arr_add : forall st q R log s n b x st', Arr st q R log -> base_at st s = Some b -> s < n -> valid n -> x = slot b (chk n) -> ut_at st x = false -> set_next st x n = Ok st' -> exists R', Arr st' q R' ((s, n) :: log).
Proof.
  intros st q R log s n b x st' A Eb Ls Vn Ex Ux Es. pose proof A as [F Ec Hq (U0 & N0) Bl Ba Inj Ed Own Ct]. destruct (Ba s b Eb) as (B1 & B2 & B3). assert (Lx : x < 256 * q) by (subst x; apply slot_lt; auto; apply (chk_pos n Vn)).
  destruct (set_next_ok st q R x n F Lx Ux) as (st2 & E2 & C2 & Ba2 & Us2 & Ut2 & Nx & Nk & R' & F' & Lr). rewrite Es in E2. injection E2 as <-. exists R'.
  assert (Ut : forall y, ut_at st' y = (y =? x) || ut_at st y).
  { intros y. rewrite Ut2, nth_upd. rewrite (proj2 (Nat.ltb_lt x _)) by (rewrite (fr_ut _ _ _ F); auto). rewrite andb_true_r. destruct (y =? x); auto. }
  assert (Keep : forall y, ut_at st y = true -> ut_at st' y = true) by (intros y Uy; rewrite Ut, Uy, orb_true_r; auto).
  constructor; auto; try congruence.
  - split; auto. rewrite Nk; auto.
  - intros s' b' E'. rewrite Ba2 in E'. rewrite Us2. now apply Ba.
  - intros s1 s2 b' E1 E2. rewrite Ba2 in E1, E2. eapply Inj; eauto.
  - intros s' t [E|I].
    + injection E as <- <-. split; auto. split; auto. exists b. rewrite Ba2. split; auto. rewrite <- Ex. split; auto. rewrite Ut, Nat.eqb_refl. auto.
    + destruct (Ed s' t I) as (E1 & E2 & b' & E3 & E4 & E5). split; auto. split; auto. exists b'. rewrite Ba2. split; auto. split; auto. rewrite Nk; auto.
  - intros y Uy. rewrite Ut in Uy. apply orb_true_iff in Uy. destruct Uy as [Ey|Uy].
    + apply Nat.eqb_eq in Ey. right. exists s, n, b. rewrite Ba2. split; [now left|]. split; [auto|congruence].
    + destruct (Own y Uy) as [E|(s' & t & b' & I & E1 & E2)]; auto. right. exists s', t, b'. rewrite Ba2. split; auto. now right.
  - cbn [cost]. lia.
Qed.
(** the edges of s between the old base b and the new base nb *)
Record Moving (st : fob) (q : nat) (R : list nat) (log : list (nat * nat)) (s b nb n : nat) (done todo : list nat) : Prop := {
  mv_free : Free st q R;
  mv_ck : fb_check st = ck;
  mv_0 : ut_at st 0 = true /\ next_at st 0 = Some 0;
  mv_other : forall s' t b', In (s', t) log -> s' <> s -> base_at st s' = Some b' -> ut_at st (slot b' (chk t)) = true /\ next_at st (slot b' (chk t)) = Some t;
  mv_done : forall t, In t done -> ut_at st (slot nb (chk t)) = true /\ next_at st (slot nb (chk t)) = Some t;
  mv_todo : forall t, In t todo -> ut_at st (slot b (chk t)) = true /\ next_at st (slot b (chk t)) = Some t /\ ut_at st (slot nb (chk t)) = false;
  mv_new : ut_at st (slot nb (chk n)) = false;
  mv_own : forall x, ut_at st x = true -> x = 0 \/ (exists s' t b', In (s', t) log /\ s' <> s /\ base_at st s' = Some b' /\ x = slot b' (chk t)) \/ (exists t, In t done /\ x = slot nb (chk t)) \/ (exists t, In t todo /\ x = slot b (chk t)) }.
Lemma move_ok : forall st q R log s b nb n done t todo, Moving st q R log s b nb n done (t :: todo) -> Forall valid (t :: todo) -> NoDup (t :: todo) -> b < 256 * q -> nb < 256 * q -> b <> nb -> chk t <> chk n ->
  (forall s' b', s' <> s -> base_at st s' = Some b' -> b' <> b) ->
  exists st' R', move_trans b nb st t = Ok st' /\ Moving st' q R' log s b nb n (t :: done) todo /\ fb_base st' = fb_base st /\ fb_us st' = fb_us st /\ length R <= S (length R').
Proof.
  intros st q R log s b nb n done t todo M V ND Lb Lnb Nb Ntn Fresh. pose proof M as [F Ec (U0 & N0) Ot Dn Td Nw Ow]. inversion V as [|? ? Vt V']; subst. apply NoDup_cons_iff in ND. destruct ND as (Nt & ND).
  unfold move_trans. rewrite Ec, check_ok by auto. cbn [bind]. fold chk. set (o := slot b (chk t)). destruct (Td t) as (Uo & No & Ux); [now left|]. fold o in Uo, No. pose proof (chk_pos t Vt) as Ht.
  assert (Lo : o < 256 * q) by (apply slot_lt; tauto). rewrite lset_Ok by (rewrite (fr_nx _ _ _ F); auto). cbn [bind]. rewrite lset_Ok by (rewrite (fr_ut _ _ _ F); auto). cbn [bind].
  pose proof (Free_drop st q R o F Lo Uo) as F1. rewrite Ec in F1. set (st1 := {| fb_check := ck; fb_base := _ |}) in *.
  assert (Ut1 : forall y, y <> o -> ut_at st1 y = ut_at st y) by (intros y Ny; unfold st1; cbn [fb_ut]; rewrite nth_upd, (proj2 (Nat.eqb_neq y o)) by auto; reflexivity).
  assert (Nx1 : forall y, y <> o -> next_at st1 y = next_at st y) by (intros y Ny; unfold st1; cbn [fb_next]; rewrite nth_upd, (proj2 (Nat.eqb_neq y o)) by auto; reflexivity).
  assert (Uo1 : ut_at st1 o = false) by (unfold st1; cbn [fb_ut]; rewrite nth_upd, Nat.eqb_refl, (proj2 (Nat.ltb_lt o _)) by (rewrite (fr_ut _ _ _ F); auto); reflexivity).
  set (x := slot nb (chk t)) in *. assert (Nxo : x <> o) by (intros C; apply slot_inj in C; congruence). assert (Lx : x < 256 * q) by (apply slot_lt; tauto).
  destruct (set_next_ok st1 q R x t F1 Lx) as (st2 & E2 & C2 & Ba2 & Us2 & Ut2 & Nxx & Nk & R' & F' & Lr); [rewrite Ut1; auto|]. exists st2, R'. split; auto.
  assert (Ut : forall y, ut_at st2 y = (y =? x) || ut_at st1 y).
  { intros y. rewrite Ut2, nth_upd. rewrite (proj2 (Nat.ltb_lt x _)) by (rewrite (fr_ut _ _ _ F1); auto). rewrite andb_true_r. destruct (y =? x); auto. }
  assert (Keep : forall y, y <> o -> ut_at st y = true -> ut_at st2 y = true /\ next_at st2 y = next_at st y).
  { intros y Ny Uy. assert (Uy1 : ut_at st1 y = true) by (rewrite Ut1; auto). split; [rewrite Ut, Uy1, orb_true_r; auto|]. rewrite Nk by auto. auto. }
  split; [|split; [rewrite Ba2; reflexivity|split; [rewrite Us2; reflexivity|auto]]].
  assert (Eb2 : fb_base st2 = fb_base st) by (rewrite Ba2; reflexivity).
  constructor; auto.
  - assert (N0o : 0 <> o) by (intros C; rewrite <- C in No; rewrite N0 in No; injection No as C'; destruct Vt; lia). destruct (Keep 0 N0o U0) as (K1 & K2). rewrite K2. auto.
  - intros s' t' b' I Ns E. rewrite Eb2 in E. destruct (Ot s' t' b' I Ns E) as (O1 & O2). assert (Ny : slot b' (chk t') <> o).
    { intros C. rewrite C in O2. assert (t' = t) by congruence. subst t'. apply slot_inj in C. apply (Fresh s' b'); auto. }
    destruct (Keep _ Ny O1) as (K1 & K2). rewrite K2. auto.
  - intros t' [<-|I]; [fold x; split; [rewrite Ut, Nat.eqb_refl; auto|auto]|]. destruct (Dn t' I) as (D1 & D2). assert (Ny : slot nb (chk t') <> o).
    { intros C. rewrite C in D2. assert (t' = t) by congruence. subst t'. apply slot_inj in C. congruence. }
    destruct (Keep _ Ny D1) as (K1 & K2). rewrite K2. auto.
  - intros t' I. destruct (Td t') as (T1 & T2 & T3); [now right|]. assert (Nc : chk t' <> chk t).
    { intros C. rewrite C in T2. fold o in T2. assert (t' = t) by congruence. subst. contradiction. }
    assert (Ny : slot b (chk t') <> o) by (intros C; apply slot_inj_c in C; auto). destruct (Keep _ Ny T1) as (K1 & K2). split; auto. split; [rewrite K2; auto|].
    rewrite Ut. rewrite (proj2 (Nat.eqb_neq _ _)) by (intros C; apply slot_inj_c in C; auto). cbn [orb]. destruct (Nat.eq_dec (slot nb (chk t')) o) as [->|]; [auto|rewrite Ut1; auto].
  - rewrite Ut. rewrite (proj2 (Nat.eqb_neq _ _)) by (intros C; apply slot_inj_c in C; auto). cbn [orb]. destruct (Nat.eq_dec (slot nb (chk n)) o) as [->|]; [auto|rewrite Ut1; auto].
  - intros y Uy. rewrite Ut in Uy. apply orb_true_iff in Uy. destruct Uy as [Ey|Uy].
    + apply Nat.eqb_eq in Ey. right. right. left. exists t. split; [now left|auto].
    + assert (Ny : y <> o) by (intros ->; congruence). rewrite Ut1 in Uy by auto. destruct (Ow y Uy) as [E|[(s' & t' & b' & I & Ns & E1 & E3)|[(t' & I & E)|(t' & I & E)]]]; auto.
      * right. left. exists s', t', b'. rewrite Eb2. auto.
      * right. right. left. exists t'. split; [now right|auto].
      * destruct I as [<-|I]; [exfalso; apply Ny; auto|]. right. right. right. exists t'. auto.
Qed.
Lemma moves_ok : forall todo st q R log s b nb n done, Moving st q R log s b nb n done todo -> Forall valid todo -> NoDup todo -> b < 256 * q -> nb < 256 * q -> b <> nb -> (forall t, In t todo -> chk t <> chk n) ->
  (forall s' b', s' <> s -> base_at st s' = Some b' -> b' <> b) ->
  exists st' R' done', foldM (move_trans b nb) todo st = Ok st' /\ Moving st' q R' log s b nb n done' [] /\ (forall t, In t done' <-> In t done \/ In t todo) /\ fb_base st' = fb_base st /\ fb_us st' = fb_us st /\ length R <= length todo + length R'.
Proof.
  induction todo as [|t todo IH]; intros st q R log s b nb n done M V ND Lb Lnb Nb Nn Fresh.
  - exists st, R, done. split; auto. split; auto. split; [intros; simpl; tauto|]. auto.
  - destruct (move_ok st q R log s b nb n done t todo M V ND Lb Lnb Nb) as (st1 & R1 & E1 & M1 & B1 & U1 & L1); auto; [apply Nn; now left|]. cbn [foldM]. rewrite E1. cbn [bind].
    inversion V; subst. apply NoDup_cons_iff in ND. destruct (IH st1 q R1 log s b nb n (t :: done) M1) as (st2 & R2 & d2 & E2 & M2 & D2 & B2 & U2 & L2); auto; try tauto.
    + intros; apply Nn. now right.
    + intros s' b'. rewrite B1. apply Fresh.
    + exists st2, R2, d2. split; auto. split; auto. split; [intros t'; rewrite D2; simpl; tauto|]. split; [congruence|]. split; [congruence|]. cbn [length]. lia.
Qed.
Theorem insert_ok : forall fuel st q R log s n, Arr st q R log -> s < n -> valid n -> (forall t, In (s, t) log -> chk t <> chk n) ->
  (insert_trans fuel st s n = Fuel /\ (R = [] \/ fuel <= length R)) \/ exists st' q' R', insert_trans fuel st s n = Ok st' /\ Arr st' q' R' ((s, n) :: log) /\ q <= q' <= q + 1.
Proof.
  intros fuel st q R log s n A Ls Vn Nw. pose proof A as [F Ec Hq (U0 & N0) Bl Ba Inj Ed Own Ct]. assert (Hs : s < m) by (destruct Vn; unfold m; lia). pose proof (chk_pos n Vn) as Hn.
  unfold insert_trans. rewrite Ec, check_ok by auto. cbn [bind]. fold chk. rewrite (lget_nth _ (fb_base st) s None) by lia. cbn [bind]. destruct (base_at st s) as [b|] eqn:Eb.
  - destruct (Ba s b Eb) as (_ & Lb & Ub). assert (Sl : slot b (chk n) < 256 * q) by (apply slot_lt; tauto). rewrite (lget_nth _ (fb_ut st) _ false) by (rewrite (fr_ut _ _ _ F); auto). cbn [bind]. destruct (ut_at st (slot b (chk n))) eqn:Ux.
    + (* conflict *)
      destruct (get_transes_ok st q R log s b A Eb) as (ts & Et & NDt & Ht). rewrite Et. cbn [bind].
      assert (Vts : Forall valid ts) by (apply Forall_forall; intros t It; apply Ht in It; apply (Ed s t It)).
      assert (Vall : Forall valid (ts ++ [n])) by (apply Forall_app; split; auto).
      assert (Hd : exists t0 l, ts ++ [n] = t0 :: l) by (destruct ts; simpl; eauto). destruct Hd as (t0 & l & Hd).
      destruct (find_base_ok ck Hck' fuel st q R (ts ++ [n]) t0 l F Ec Hd Vall Hq U0 N0) as [(E1 & C1)|(st1 & q1 & R1 & nb & E1 & F1 & G1 & (Lnb & Unb & Pl) & Lr)].
      { left. rewrite E1. cbn [bind]. auto. }
      right. rewrite E1. cbn [bind]. fold chk in Pl. pose proof (Arr_grown _ _ _ _ _ _ _ A G1 F1 Lr) as A1. pose proof A1 as [_ Ec1 Hq1 (U01 & N01) Bl1 Ba1 Inj1 Ed1 Own1 Ct1]. pose proof G1 as (G1c & G1b & G1s & G1t & G1n & G1q).
      assert (Eb1 : base_at st1 s = Some b) by (rewrite G1b; auto). destruct (Ba1 s b Eb1) as (_ & Lb1 & Ub1). assert (Nnb : b <> nb) by congruence.
      unfold set_us. rewrite lset_Ok by (rewrite (fr_us _ _ _ F1); auto). cbn [bind fb_us]. rewrite lset_Ok by (rewrite upd_length, (fr_us _ _ _ F1); auto). cbn [bind]. unfold set_base. cbn [fb_base]. rewrite lset_Ok by (rewrite Bl1; lia). cbn [bind fb_check fb_base fb_us fb_ut fb_next fb_prev fb_front].
      pose proof (Free_base _ _ _ (upd (fb_base st1) s (Some nb)) (Free_us _ _ _ nb true (Free_us _ _ _ b false F1))) as F2. cbn [fb_check fb_base fb_us fb_ut fb_next fb_prev fb_front] in F2.
      set (st2 := {| fb_check := fb_check st1; fb_base := _ |}) in *.
      assert (Bs : forall s', base_at st2 s' = if s' =? s then Some nb else base_at st1 s') by (intros s'; unfold st2; cbn [fb_base]; rewrite nth_upd, (proj2 (Nat.ltb_lt s _)) by (rewrite Bl1; lia); now rewrite andb_true_r).
      assert (M2 : Moving st2 q1 R1 log s b nb n [] ts).
      { constructor; auto; try solve [intros t []].
        - intros s' t b' I Ns E. rewrite Bs, (proj2 (Nat.eqb_neq _ _)) in E by auto. destruct (Ed1 s' t I) as (_ & _ & b2 & E2 & E3). assert (b2 = b') by congruence. subst b2. exact E3.
        - intros t I. apply Ht in I as I'. destruct (Ed1 s t I') as (_ & _ & b2 & E2 & E3 & E4). assert (b2 = b) by congruence. subst b2. split; auto. split; auto. apply Pl. apply in_app_iff. auto.
        - apply Pl. apply in_app_iff. right. now left.
        - intros x Uy. destruct (Own1 x Uy) as [E|(s' & t & b' & I & E2 & E3)]; auto. destruct (Nat.eq_dec s' s) as [->|Ns].
          + right. right. right. exists t. split; [now apply Ht|]. congruence.
          + right. left. exists s', t, b'. split; auto. split; auto. split; auto. rewrite Bs, (proj2 (Nat.eqb_neq _ _)) by auto. auto. }
      destruct (moves_ok ts st2 q1 R1 log s b nb n [] M2) as (st3 & R3 & d3 & E3 & M3 & D3 & B3 & U3 & L3); auto.
      { intros t It. apply Nw. now apply Ht. }
      { intros s' b' Ns E. rewrite Bs, (proj2 (Nat.eqb_neq _ _)) in E by auto. intros ->. apply Ns. eapply Inj1; eauto. }
      rewrite E3. cbn [bind]. pose proof M3 as [F3 Ec3 (U03 & N03) Ot3 Dn3 _ Nw3 Ow3].
      destruct (set_next_ok st3 q1 R3 (slot nb (chk n)) n F3) as (st4 & E4 & C4 & Ba4 & Us4 & Ut4 & Nx4 & Nk4 & R4 & F4 & L4); auto; [apply slot_lt; tauto|]. exists st4, q1, R4. split; auto. split; [|lia].
      assert (Ut : forall y, ut_at st4 y = (y =? slot nb (chk n)) || ut_at st3 y).
      { intros y. rewrite Ut4, nth_upd. rewrite (proj2 (Nat.ltb_lt _ _)) by (rewrite (fr_ut _ _ _ F3); apply slot_lt; tauto). rewrite andb_true_r. destruct (y =? _); auto. }
      assert (Keep : forall y, ut_at st3 y = true -> ut_at st4 y = true) by (intros y Uy; rewrite Ut, Uy, orb_true_r; auto).
      assert (Bs4 : forall s', base_at st4 s' = if s' =? s then Some nb else base_at st1 s') by (intros; rewrite Ba4, B3; apply Bs).
      assert (Us : forall y, us_at st4 y = if y =? nb then true else if y =? b then false else us_at st1 y).
      { intros y. rewrite Us4, U3. unfold st2. cbn [fb_us]. rewrite !nth_upd, upd_length, (fr_us _ _ _ F1). rewrite (proj2 (Nat.ltb_lt nb _)), (proj2 (Nat.ltb_lt b _)) by auto. now rewrite !andb_true_r. }
      constructor; auto; try congruence.
      * split; auto. rewrite Nk4; auto.
      * rewrite Ba4, B3. unfold st2. cbn [fb_base]. rewrite upd_length. auto.
      * intros s' b' E. rewrite Bs4 in E. rewrite Us. destruct (Nat.eqb_spec s' s) as [->|Ns].
        -- injection E as <-. rewrite Nat.eqb_refl. auto.
        -- destruct (Ba1 s' b' E) as (B1 & B2 & B4). split; auto. split; auto. destruct (b' =? nb); auto. rewrite (proj2 (Nat.eqb_neq b' b)); auto. intros ->. apply Ns. eapply Inj1; eauto.
      * intros s1 s2 b' E1' E2'. rewrite Bs4 in E1', E2'. assert (Fr : forall s', base_at st1 s' = Some nb -> False) by (intros s' E; apply Ba1 in E; destruct E as (_ & _ & E); congruence).
        destruct (Nat.eqb_spec s1 s) as [->|N1']; destruct (Nat.eqb_spec s2 s) as [->|N2']; auto; [injection E1' as <-; exfalso; eapply Fr; eauto|injection E2' as <-; exfalso; eapply Fr; eauto|eapply Inj1; eauto].
      * intros s' t [E|I].
        -- injection E as <- <-. split; auto. split; auto. exists nb. rewrite Bs4, Nat.eqb_refl. split; auto. split; auto. rewrite Ut, Nat.eqb_refl. auto.
        -- destruct (Ed1 s' t I) as (E1' & E2' & b' & E3' & E4' & E5'). split; auto. split; auto. destruct (Nat.eq_dec s' s) as [->|Ns].
           ++ exists nb. rewrite Bs4, Nat.eqb_refl. split; auto. destruct (Dn3 t) as (D1 & D2); [apply D3; right; now apply Ht|]. split; auto. rewrite Nk4; auto.
           ++ exists b'. rewrite Bs4, (proj2 (Nat.eqb_neq _ _)) by auto. split; auto. destruct (Ot3 s' t b' I Ns) as (D1 & D2); [rewrite B3, Bs, (proj2 (Nat.eqb_neq _ _)) by auto; auto|]. split; auto. rewrite Nk4; auto.
      * intros y Uy. rewrite Ut in Uy. apply orb_true_iff in Uy. destruct Uy as [Ey|Uy].
        -- apply Nat.eqb_eq in Ey. right. exists s, n, nb. rewrite Bs4, Nat.eqb_refl. split; [now left|auto].
        -- destruct (Ow3 y Uy) as [E|[(s' & t' & b' & I & Ns & E1' & E3')|[(t' & I & E)|(t' & [] & E)]]]; auto.
           ++ right. exists s', t', b'. split; [now right|]. split; auto. rewrite Bs4, (proj2 (Nat.eqb_neq _ _)) by auto. rewrite B3, Bs, (proj2 (Nat.eqb_neq _ _)) in E1' by auto. auto.
           ++ right. exists s, t', nb. rewrite Bs4, Nat.eqb_refl. split; auto. right. apply Ht. apply D3 in I. destruct I as [[]|I]; auto.
      * cbn [cost fst]. pose proof (count_le log s ts NDt Ht). lia.
    + right. destruct (set_next_ok st q R (slot b (chk n)) n F Sl Ux) as (st' & E' & _). rewrite E'. destruct (Arr_add st q R log s n b _ st' A Eb Ls Vn eq_refl Ux E') as (R' & A'). exists st', q, R'. split; auto. split; [auto|lia].
  - (* the first edge of s *)
    destruct (find_base_ok ck Hck' fuel st q R [n] n [] F Ec eq_refl ltac:(repeat constructor; apply Vn) Hq U0 N0) as [(E1 & C1)|(st1 & q1 & R1 & nb & E1 & F1 & G1 & (Lnb & Unb & Pl) & Lr)].
    { left. rewrite E1. cbn [bind]. auto. }
    right. rewrite E1. cbn [bind]. fold chk in Pl. pose proof (Arr_grown _ _ _ _ _ _ _ A G1 F1 Lr) as A1. pose proof A1 as [_ Ec1 Hq1 (U01 & N01) Bl1 Ba1 Inj1 Ed1 Own1 Ct1]. pose proof G1 as (G1c & G1b & G1s & G1t & G1n & G1q).
    assert (Eb1 : base_at st1 s = None) by (rewrite G1b; auto). unfold set_base. rewrite lset_Ok by (rewrite Bl1; lia). cbn [bind]. pose proof (Free_base _ _ _ (upd (fb_base st1) s (Some nb)) F1) as F2. set (st2 := {| fb_check := fb_check st1; fb_base := _ |}) in *.
    assert (Bs : forall s', base_at st2 s' = if s' =? s then Some nb else base_at st1 s') by (intros s'; unfold st2; cbn [fb_base]; rewrite nth_upd, (proj2 (Nat.ltb_lt s _)) by (rewrite Bl1; lia); now rewrite andb_true_r).
    assert (Sl : slot nb (chk n) < 256 * q1) by (apply slot_lt; tauto).
    destruct (set_next_ok st2 q1 R1 (slot nb (chk n)) n F2 Sl) as (st3 & E3 & C3 & Ba3 & Us3 & Ut3 & Nx3 & Nk3 & R3 & F3 & L3); [apply (Pl n); now left|]. rewrite E3. cbn [bind]. unfold set_us. rewrite lset_Ok by (rewrite Us3; unfold st2; cbn [fb_us]; rewrite (fr_us _ _ _ F1); auto). cbn [bind].
    eexists. exists q1, R3. split; [reflexivity|]. split; [|lia].
    assert (Ut : forall y, ut_at st3 y = (y =? slot nb (chk n)) || ut_at st1 y).
    { intros y. rewrite Ut3, nth_upd. rewrite (proj2 (Nat.ltb_lt _ _)) by (rewrite (fr_ut _ _ _ F2); auto). rewrite andb_true_r. destruct (y =? _); auto. }
    assert (Keep : forall y, ut_at st1 y = true -> ut_at st3 y = true) by (intros y Uy; rewrite Ut, Uy, orb_true_r; auto).
    assert (Bs3 : forall s', base_at st3 s' = if s' =? s then Some nb else base_at st1 s') by (intros; rewrite Ba3; apply Bs).
    assert (Us : forall y, nth y (upd (fb_us st3) nb true) false = if y =? nb then true else us_at st1 y).
    { intros y. rewrite Us3. unfold st2. cbn [fb_us]. rewrite nth_upd, (fr_us _ _ _ F1). rewrite (proj2 (Nat.ltb_lt nb _)) by auto. now rewrite andb_true_r. }
    constructor; cbn [fb_check fb_base fb_us fb_ut fb_next fb_prev fb_front]; auto; try congruence.
    + apply (Free_us st3). exact F3.
    + unfold st2 in C3. cbn [fb_check] in C3. congruence.
    + split; auto. rewrite Nk3; auto.
    + rewrite Ba3. unfold st2. cbn [fb_base]. rewrite upd_length. auto.
    + intros s' b' E. rewrite Bs3 in E. rewrite Us. destruct (Nat.eqb_spec s' s) as [->|Ns].
      * injection E as <-. rewrite Nat.eqb_refl. auto.
      * destruct (Ba1 s' b' E) as (B1 & B2 & B4). split; auto. split; auto. destruct (b' =? nb); auto.
    + intros s1 s2 b' E1' E2'. rewrite Bs3 in E1', E2'. assert (Fr : forall s', base_at st1 s' = Some nb -> False) by (intros s' E; apply Ba1 in E; destruct E as (_ & _ & E); congruence).
      destruct (Nat.eqb_spec s1 s) as [->|N1']; destruct (Nat.eqb_spec s2 s) as [->|N2']; auto; [injection E1' as <-; exfalso; eapply Fr; eauto|injection E2' as <-; exfalso; eapply Fr; eauto|eapply Inj1; eauto].
    + intros s' t [E|I].
      * injection E as <- <-. split; auto. split; auto. exists nb. rewrite Bs3, Nat.eqb_refl. split; auto. split; auto. rewrite Ut, Nat.eqb_refl. auto.
      * destruct (Ed1 s' t I) as (E1' & E2' & b' & E3' & E4' & E5'). split; auto. split; auto. assert (Ns : s' <> s) by congruence. exists b'. rewrite Bs3, (proj2 (Nat.eqb_neq _ _)) by auto. split; auto. split; auto. rewrite Nk3; auto.
    + intros y Uy. rewrite Ut in Uy. apply orb_true_iff in Uy. destruct Uy as [Ey|Uy].
      * apply Nat.eqb_eq in Ey. right. exists s, n, nb. rewrite Bs3, Nat.eqb_refl. split; [now left|auto].
      * destruct (Own1 y Uy) as [E|(s' & t' & b' & I & E1' & E3')]; auto. right. exists s', t', b'. split; [now right|]. split; auto. rewrite Bs3. assert (Ns : s' <> s) by congruence. now rewrite (proj2 (Nat.eqb_neq _ _)).
    + cbn [cost fst]. lia.
Qed.
End Arr.
