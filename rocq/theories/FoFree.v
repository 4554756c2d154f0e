(** The free slots of the factor oracle builder: set_next, _expand_block and _find_base. *)
From Coq Require Import List NArith ZArith Arith Bool Lia Permutation.
From Verif Require Import Base FoModel FoRing.
Import ListNotations.
Local Open Scope nat_scope.

(** ** slots *)
Lemma slot_slot : forall b c, slot (slot b c) c = b.
Proof. intros. unfold slot. rewrite N2Nat.id, N.lxor_assoc, N.lxor_nilpotent, N.lxor_0_r. apply Nat2N.id. Qed.
Lemma slot_inj : forall a b c, slot a c = slot b c -> a = b.
Proof. intros a b c H. rewrite <- (slot_slot a c), H. apply slot_slot. Qed.
Lemma slot_inj_c : forall b c d, slot b c = slot b d -> c = d.
Proof.
  intros b c d H. unfold slot in H. apply N2Nat.inj in H. assert (E : N.lxor (N.of_nat b) (N.lxor (N.of_nat b) c) = N.lxor (N.of_nat b) (N.lxor (N.of_nat b) d)) by congruence.
  rewrite <- !N.lxor_assoc, N.lxor_nilpotent, !N.lxor_0_l in E. exact E.
Qed.
Lemma slot_block : forall b c, (c < 256)%N -> (N.of_nat (slot b c) / 256 = N.of_nat b / 256)%N.
Proof.
  intros b c Hc. unfold slot. rewrite N2Nat.id. change 256%N with (2 ^ 8)%N. rewrite <- !N.shiftr_div_pow2, N.shiftr_lxor. rewrite (N.shiftr_div_pow2 c). rewrite (N.div_small c) by exact Hc. apply N.lxor_0_r.
Qed.
Lemma slot_range : forall b c q, (c < 256)%N -> 256 * q <= b < 256 * q + 256 -> 256 * q <= slot b c < 256 * q + 256.
Proof.
  intros b c q Hc Hb. pose proof (slot_block b c Hc) as E. assert (Eb : (N.of_nat b / 256 = N.of_nat q)%N) by (symmetry; apply (N.div_unique _ _ _ (N.of_nat b - 256 * N.of_nat q)); lia).
  rewrite Eb in E. pose proof (N.div_mod (N.of_nat (slot b c)) 256 ltac:(discriminate)) as D. rewrite E in D. pose proof (N.mod_lt (N.of_nat (slot b c)) 256 ltac:(discriminate)). lia.
Qed.
Lemma slot_lt : forall b c q, (c < 256)%N -> b < 256 * q -> slot b c < 256 * q.
Proof.
  intros b c q Hc Hb. assert (D : 256 * (b / 256) <= b < 256 * (b / 256) + 256). { pose proof (Nat.div_mod b 256 ltac:(discriminate)). pose proof (Nat.mod_upper_bound b 256 ltac:(discriminate)). lia. }
  pose proof (slot_range b c (b / 256) Hc D). lia.
Qed.

(** ** the invariant of the free slots *)
Notation ut_at st x := (nth x (fb_ut st) false).
Notation us_at st x := (nth x (fb_us st) false).
Notation next_at st x := (nth x (fb_next st) None).
Record Free (st : fob) (q : nat) (R : list nat) : Prop := {
  fr_nx : length (fb_next st) = 256 * q;
  fr_pv : length (fb_prev st) = 256 * q;
  fr_us : length (fb_us st) = 256 * q;
  fr_ut : length (fb_ut st) = 256 * q;
  fr_ring : ring (fb_next st) (fb_prev st) R;
  fr_nodup : NoDup R;
  fr_in : forall y, In y R -> y < 256 * q /\ ut_at st y = false;
  fr_out : forall y, y < 256 * q -> ut_at st y = false -> ~ In y R -> next_at st y = None;
  fr_front : In (fb_front st) R \/ (R = [] /\ fb_front st = 0) }.

Lemma Free_rotate : forall st q l1 l2, Free st q (l1 ++ l2) -> Free st q (l2 ++ l1).
Proof.
  intros st q l1 l2 H. destruct H. assert (I : forall y, In y (l2 ++ l1) <-> In y (l1 ++ l2)) by (intros; rewrite !in_app_iff; tauto). constructor; auto.
  - now apply ring_rotate.
  - apply (Permutation.Permutation_NoDup (l := l1 ++ l2)); auto. apply Permutation.Permutation_app_comm.
  - intros y Hy. apply fr_in0. now apply I.
  - intros y L U N. apply fr_out0; auto. intros C. apply N. now apply I.
  - destruct fr_front0 as [F|(F & G)]; [left; now apply I|right]. apply app_eq_nil in F. destruct F as (-> & ->). auto.
Qed.
(** with a chosen element in front *)
Lemma Free_at : forall st q R x, Free st q R -> In x R -> exists l, Free st q (x :: l) /\ length R = S (length l).
Proof.
  intros st q R x H Hx. apply in_split in Hx. destruct Hx as (l1 & l2 & ->). apply Free_rotate in H. exists (l2 ++ l1). split; auto. rewrite !app_length. simpl. lia.
Qed.

Lemma set_next_ok : forall st q R x v, Free st q R -> x < 256 * q -> ut_at st x = false ->
  exists st', set_next st x v = Ok st' /\ fb_check st' = fb_check st /\ fb_base st' = fb_base st /\ fb_us st' = fb_us st /\ fb_ut st' = upd (fb_ut st) x true /\ next_at st' x = Some v /\
    (forall y, ut_at st y = true -> next_at st' y = next_at st y) /\ exists R', Free st' q R' /\ length R <= S (length R').
Proof.
  intros st q R x v F Hx Hu. pose proof F as [Ln Lp Ls Lt Rg ND In_ Out Fr]. unfold set_next. rewrite (lget_nth _ (fb_next st) x None) by lia. cbn [bind].
  destruct (in_dec Nat.eq_dec x R) as [I|I].
  - destruct (Free_at st q R x F I) as (l & F' & Ll). pose proof F' as [_ _ _ _ Rg' ND' In' Out' Fr']. clear Rg ND Out Fr.
    assert (En : exists n, next_at st x = Some n). { simpl in Rg'. destruct l as [|g l]; simpl in Rg'; [destruct Rg' as (E & _); eauto|destruct Rg' as ((E & _) & _); eauto]. }
    destruct En as (n & En). rewrite En. destruct (ring_unlink _ _ x l n Rg' ND' En) as (Ip & In1 & Eq & Close); [intros y Hy; apply In' in Hy; lia|].
    pose proof (proj1 (In' _ Ip)) as Lp'. pose proof (proj1 (In' _ In1)) as Ln'. rewrite (lget_nth _ (fb_prev st) x 0) by lia. cbn [bind]. rewrite lset_Ok by lia. cbn [bind]. rewrite lset_Ok by lia. cbn [bind]. rewrite lset_Ok by lia. cbn [bind]. rewrite lset_Ok by (rewrite upd_length; lia). cbn [bind].
    eexists. split; [reflexivity|]. cbn [fb_check fb_base fb_us fb_ut fb_next fb_prev fb_front]. do 4 (split; [reflexivity|]).
    apply NoDup_cons_iff in ND'. destruct ND' as (Nx & ND').
    assert (Nn : forall y, y <> x -> nth y (upd (upd (fb_next st) (nth x (fb_prev st) 0) (Some n)) x (Some v)) None = if y =? nth x (fb_prev st) 0 then Some n else next_at st y).
    { intros y Ny. rewrite !nth_upd, upd_length. rewrite (proj2 (Nat.eqb_neq y x)) by auto. cbn [andb]. rewrite (proj2 (Nat.ltb_lt (nth x (fb_prev st) 0) _)) by lia. now rewrite andb_true_r. }
    split; [rewrite nth_upd, upd_length, Nat.eqb_refl, (proj2 (Nat.ltb_lt x _)) by lia; reflexivity|]. split.
    { intros y Uy. rewrite Nn by congruence. destruct (Nat.eqb_spec y (nth x (fb_prev st) 0)) as [->|]; auto. pose proof (In' _ Ip) as (_ & C). congruence. }
    exists l. split; [|lia]. constructor; cbn [fb_check fb_base fb_us fb_ut fb_next fb_prev fb_front]; rewrite ?upd_length; auto.
    + apply Close; [apply Nn|]. intros y Ny. rewrite nth_upd. rewrite (proj2 (Nat.ltb_lt n _)) by lia. now rewrite andb_true_r.
    + intros y Hy. split; [apply In'; now right|]. rewrite nth_upd. rewrite (proj2 (Nat.eqb_neq y x)) by (intros ->; contradiction). cbn [andb]. apply In'. now right.
    + intros y Ly Uy Ny. rewrite nth_upd in Uy. rewrite (proj2 (Nat.ltb_lt x (length (fb_ut st)))) in Uy by lia. rewrite andb_true_r in Uy. destruct (Nat.eqb_spec y x); [discriminate|]. rewrite Nn by auto.
      destruct (Nat.eqb_spec y (nth x (fb_prev st) 0)) as [->|].
      * exfalso. apply Ny. destruct Ip as [C|C]; [congruence|auto].
      * apply Out'; auto. intros [C|C]; [congruence|auto].
    + destruct (Nat.eqb_spec (fb_front st) x) as [Ef|Nf].
      * destruct (Nat.eqb_spec n (fb_front st)) as [E|E].
        -- right. split; auto. apply Eq. congruence.
        -- left. destruct In1 as [C|C]; [congruence|auto].
      * destruct Fr' as [[C|C]|(C & _)]; [congruence|left; auto|discriminate].
  - rewrite (Out x Hx Hu I). cbn [bind]. rewrite lset_Ok by lia. cbn [bind]. rewrite lset_Ok by lia. cbn [bind]. eexists. split; [reflexivity|]. cbn [fb_check fb_base fb_us fb_ut fb_next fb_prev fb_front]. do 4 (split; [reflexivity|]).
    assert (Nn : forall y, y <> x -> nth y (upd (fb_next st) x (Some v)) None = next_at st y) by (intros y Ny; rewrite nth_upd, (proj2 (Nat.eqb_neq y x)) by auto; reflexivity).
    split; [rewrite nth_upd, Nat.eqb_refl, (proj2 (Nat.ltb_lt x _)) by lia; reflexivity|]. split; [intros y Uy; apply Nn; congruence|].
    exists R. split; [|lia]. constructor; cbn [fb_check fb_base fb_us fb_ut fb_next fb_prev fb_front]; rewrite ?upd_length; auto.
    + destruct R as [|f l]; auto. simpl in *. apply (chain_ext (fb_next st) (fb_prev st)); auto. intros y Hy. apply Nn. intros ->. contradiction.
    + intros y Hy. rewrite nth_upd. rewrite (proj2 (Nat.eqb_neq y x)) by (intros ->; contradiction). cbn [andb]. auto.
    + intros y Ly Uy Ny. rewrite nth_upd in Uy. rewrite (proj2 (Nat.ltb_lt x (length (fb_ut st)))) in Uy by lia. rewrite andb_true_r in Uy. destruct (Nat.eqb_spec y x); [discriminate|]. rewrite Nn by auto. now apply Out.
Qed.

(** ** _expand_block *)
Lemma link_block_ok : forall k s nx pv, s + k <= length nx -> length pv = length nx -> exists nx' pv', foldM link_block (seq s k) (nx, pv) = Ok (nx', pv') /\ length nx' = length nx /\ length pv' = length nx /\
  forall y, nth y nx' None = (if (s <=? y) && (y <? s + k) then Some (y + 1) else nth y nx None) /\ nth y pv' 0 = (if (s <=? y) && (y <? s + k) then y - 1 else nth y pv 0).
Proof.
  induction k as [|k IH]; intros s nx pv Hk Hl.
  - exists nx, pv. split; auto. split; auto. split; auto. intros y. destruct (Nat.leb_spec s y); destruct (Nat.ltb_spec y (s + 0)); cbn [andb]; auto; lia.
  - cbn [seq foldM]. unfold link_block at 1. cbn [fst snd]. rewrite lset_Ok by lia. cbn [bind]. rewrite lset_Ok by lia. cbn [bind].
    destruct (IH (S s) (upd nx s (Some (s + 1))) (upd pv s (s - 1))) as (nx' & pv' & E & L1 & L2 & P); [rewrite upd_length; lia|rewrite !upd_length; lia|]. exists nx', pv'. rewrite upd_length in L1, L2. split; auto. split; auto. split; auto.
    intros y. destruct (P y) as (P1 & P2). rewrite P1, P2, !nth_upd. destruct (Nat.eqb_spec y s) as [->|Ny].
    + rewrite (proj2 (Nat.leb_gt (S s) s)) by lia. rewrite (proj2 (Nat.leb_le s s)) by lia. rewrite (proj2 (Nat.ltb_lt s (s + S k))) by lia. cbn [andb]. rewrite !(proj2 (Nat.ltb_lt s _)) by lia. auto.
    + cbn [andb]. replace (S s <=? y) with (s <=? y) by (destruct (Nat.leb_spec s y); destruct (Nat.leb_spec (S s) y); auto; lia). replace (S s + k) with (s + S k) by lia. auto.
Qed.
Lemma expand_ok : forall st q R, Free st q R -> (R = [] \/ exists l, R = fb_front st :: l) -> (R <> [] \/ (ut_at st 0 = true /\ 1 <= q) \/ q = 0) ->
  exists st', expand_block st = Ok st' /\ fb_check st' = fb_check st /\ fb_base st' = fb_base st /\ fb_us st' = fb_us st ++ repeat false 256 /\ fb_ut st' = fb_ut st ++ repeat false 256 /\
    fb_front st' = (match R with [] => 256 * q | _ => fb_front st end) /\ Free st' (S q) (R ++ seq (256 * q) 256) /\
    (forall y, ut_at st y = true -> next_at st' y = next_at st y) /\ (forall y, In y R -> next_at st y = Some (fb_front st) -> next_at st' y = Some (256 * q)).
Proof.
  intros st q R F HR Hc. pose proof F as [Ln Lp Ls Lt Rg ND In_ Out Fr]. unfold expand_block. rewrite Ln. set (b := 256 * q) in *. rewrite app_length, Ln, repeat_length. set (e := b + 256).
  set (nx0 := fb_next st ++ repeat (Some 0) 256). set (pv0 := fb_prev st ++ repeat 0 256).
  assert (Ln0 : length nx0 = e) by (unfold nx0; rewrite app_length, repeat_length, Ln; reflexivity). assert (Lp0 : length pv0 = e) by (unfold pv0; rewrite app_length, repeat_length, Lp; reflexivity).
  assert (Lt0 : length (fb_ut st ++ repeat false 256) = e) by (rewrite app_length, repeat_length, Lt; reflexivity).
  assert (Nx0 : forall y, y < b -> nth y nx0 None = next_at st y) by (intros y Hy; unfold nx0; apply app_nth1; lia).
  assert (Pv0 : forall y, y < b -> nth y pv0 0 = nth y (fb_prev st) 0) by (intros y Hy; unfold pv0; apply app_nth1; lia).
  assert (Ut0 : forall y, nth y (fb_ut st ++ repeat false 256) false = ut_at st y).
  { intros y. destruct (Nat.lt_ge_cases y b); [apply app_nth1; lia|]. rewrite app_nth2 by lia. rewrite (nth_overflow (fb_ut st)) by lia. generalize 256 as k. intros k. destruct (Nat.lt_ge_cases (y - length (fb_ut st)) k); [apply nth_repeat_lt; auto|apply nth_overflow; rewrite repeat_length; auto]. }
  rewrite (lget_nth _ _ 0 false) by (rewrite Lt0; unfold e; lia). cbn [bind]. rewrite Ut0.
  (* the ends of the new ring *)
  assert (Mid : exists nx1 pv1 front' back, (if negb (fb_front st =? 0) || negb (ut_at st 0) then do ob <- lget pv0 (fb_front st); do pv <- lset pv0 b ob; do nx <- lset nx0 ob (Some b); do pv <- lset pv (fb_front st) (e - 1); Ok (nx, pv, fb_front st) else do pv <- lset pv0 b (e - 1); Ok (nx0, pv, b)) = Ok (nx1, pv1, front') /\
    length nx1 = e /\ length pv1 = e /\ front' = (match R with [] => b | _ => fb_front st end) /\ back = (match R with [] => e - 1 | _ => nth (fb_front st) (fb_prev st) 0 end) /\ nth b pv1 0 = back /\
    (forall y, y < b -> nth y nx1 None = (if (match R with [] => false | _ => true end) && (y =? back) then Some b else next_at st y)) /\
    (forall y, y < b -> nth y pv1 0 = (if (match R with [] => false | _ => true end) && (y =? fb_front st) then e - 1 else nth y (fb_prev st) 0))).
  { destruct R as [|f l].
    - assert (Ef : fb_front st = 0) by (destruct Fr as [[]|(_ & Fr)]; auto). rewrite Ef. cbn [Nat.eqb negb orb]. destruct Hc as [C|[(U & Q)|Q]]; [congruence| |].
      + rewrite U. cbn [negb]. rewrite lset_Ok by (rewrite Lp0; unfold e; lia). cbn [bind]. eexists. eexists. eexists. eexists. split; [reflexivity|]. rewrite upd_length. do 3 (split; [auto|]). split; [reflexivity|]. rewrite nth_upd, Nat.eqb_refl, (proj2 (Nat.ltb_lt b _)) by (rewrite Lp0; unfold e; lia). split; [reflexivity|].
        cbn [andb]. split; [auto|]. intros y Hy. rewrite nth_upd, (proj2 (Nat.eqb_neq y b)) by lia. cbn [andb]. auto.
      + subst q. assert (Eb : b = 0) by (unfold b; lia). rewrite nth_overflow by lia. cbn [negb]. rewrite (lget_nth _ pv0 0 0) by (rewrite Lp0; unfold e; lia). cbn [bind]. rewrite lset_Ok by (rewrite Lp0; unfold e; lia). cbn [bind].
        assert (E0 : nth 0 pv0 0 = 0) by (unfold pv0; apply length_zero_iff_nil in Lp; [rewrite Lp; reflexivity]). rewrite E0. rewrite lset_Ok by (rewrite Ln0; unfold e; lia). cbn [bind]. rewrite lset_Ok by (rewrite upd_length, Lp0; unfold e; lia). cbn [bind].
        eexists. eexists. eexists. eexists. split; [reflexivity|]. rewrite !upd_length. do 2 (split; [auto|]). split; [auto|]. split; [reflexivity|]. rewrite Eb. rewrite nth_upd, upd_length, Nat.eqb_refl, (proj2 (Nat.ltb_lt 0 _)) by (rewrite Lp0; unfold e; lia). split; [reflexivity|]. split; intros; lia.
    - destruct HR as [C|(l' & E)]; [discriminate|]. injection E as Ef _. subst f.
      assert (C1 : negb (fb_front st =? 0) || negb (ut_at st 0) = true). { destruct (Nat.eqb_spec (fb_front st) 0) as [Z|Z]; auto. cbn [negb orb]. destruct (In_ (fb_front st)) as (_ & U); [now left|]. rewrite Z in U. now rewrite U. }
      rewrite C1. destruct (In_ (fb_front st)) as (Lf & _); [now left|]. fold b in Lf. rewrite (lget_nth _ pv0 _ 0) by lia. cbn [bind]. rewrite Pv0 by auto. simpl in Rg. pose proof (chain_prev _ _ _ _ _ Rg) as (Ip & _). destruct (In_ _ Ip) as (Lpv & _). fold b in Lpv.
      rewrite lset_Ok by lia. cbn [bind]. rewrite lset_Ok by lia. cbn [bind]. rewrite lset_Ok by (rewrite upd_length; lia). cbn [bind]. eexists. eexists. eexists. eexists. split; [reflexivity|]. rewrite !upd_length. do 3 (split; [auto|]). split; [reflexivity|].
      split; [rewrite !nth_upd, upd_length, Nat.eqb_refl, (proj2 (Nat.eqb_neq b (fb_front st))), (proj2 (Nat.ltb_lt b _)) by lia; reflexivity|]. split.
      + intros y Hy. rewrite nth_upd. rewrite (proj2 (Nat.ltb_lt _ _)) by lia. rewrite andb_true_r. cbn [andb]. destruct (y =? _); auto.
      + intros y Hy. rewrite !nth_upd, upd_length. rewrite (proj2 (Nat.ltb_lt (fb_front st) _)) by lia. rewrite andb_true_r. cbn [andb]. destruct (y =? fb_front st); auto. rewrite (proj2 (Nat.eqb_neq y b)) by lia. cbn [andb]. auto. }
  destruct Mid as (nx1 & pv1 & front' & back & E1 & L1 & L2 & Ef & Eb & Pb & N1 & P1). rewrite E1. cbn [bind]. rewrite lset_Ok by (rewrite L1; unfold e; lia). cbn [bind].
  destruct (link_block_ok 254 (b + 1) (upd nx1 b (Some (b + 1))) pv1) as (nx2 & pv2 & E2 & L3 & L4 & P2); [rewrite upd_length, L1; unfold e; lia|rewrite upd_length; lia|]. rewrite upd_length in L3, L4. rewrite E2. cbn [bind].
  rewrite lset_Ok by (rewrite L3, L1; unfold e; lia). cbn [bind]. rewrite lset_Ok by (rewrite L4, L1; unfold e; lia). cbn [bind].
  eexists. split; [reflexivity|]. cbn [fb_check fb_base fb_us fb_ut fb_next fb_prev fb_front]. do 4 (split; [reflexivity|]). split; [exact Ef|].
  assert (FN : forall y, nth y (upd nx2 (e - 1) (Some front')) None = if y =? e - 1 then Some front' else if (b <=? y) && (y <? e - 1) then Some (y + 1) else nth y nx1 None).
  { intros y. rewrite nth_upd. rewrite (proj2 (Nat.ltb_lt (e - 1) _)) by (rewrite L3, L1; unfold e; lia). rewrite andb_true_r. destruct (Nat.eqb_spec y (e - 1)); auto. destruct (P2 y) as (P2' & _). rewrite P2'. rewrite nth_upd, L1. unfold e in *.
    destruct (Nat.eqb_spec y b) as [->|]; [rewrite (proj2 (Nat.leb_gt (b + 1) b)), (proj2 (Nat.leb_le b b)), (proj2 (Nat.ltb_lt b (b + 256))), (proj2 (Nat.ltb_lt b (b + 256 - 1))) by lia; reflexivity|]. cbn [andb].
    destruct (Nat.leb_spec (b + 1) y); destruct (Nat.leb_spec b y); destruct (Nat.ltb_spec y (b + 1 + 254)); destruct (Nat.ltb_spec y (b + 256 - 1)); cbn [andb]; auto; lia. }
  assert (FP : forall y, nth y (upd pv2 (e - 1) (e - 2)) 0 = if (b <? y) && (y <? e) then y - 1 else nth y pv1 0).
  { intros y. rewrite nth_upd. rewrite (proj2 (Nat.ltb_lt (e - 1) _)) by (rewrite L4, L1; unfold e; lia). rewrite andb_true_r. destruct (P2 y) as (_ & P2'). rewrite P2'. unfold e in *. destruct (Nat.eqb_spec y (b + 256 - 1)) as [Ey|Ny].
    - rewrite (proj2 (Nat.ltb_lt b y)), (proj2 (Nat.ltb_lt y _)) by lia. cbn [andb]. lia.
    - destruct (Nat.leb_spec (b + 1) y); destruct (Nat.ltb_spec b y); destruct (Nat.ltb_spec y (b + 1 + 254)); destruct (Nat.ltb_spec y (b + 256)); cbn [andb]; auto; lia. }
  assert (FNb : forall y, y < b -> nth y (upd nx2 (e - 1) (Some front')) None = nth y nx1 None).
  { intros y Hy. rewrite FN. rewrite (proj2 (Nat.eqb_neq _ _)) by (unfold e; lia). now rewrite (proj2 (Nat.leb_gt b y)) by lia. }
  assert (FPb : forall y, y <= b -> nth y (upd pv2 (e - 1) (e - 2)) 0 = nth y pv1 0).
  { intros y Hy. rewrite FP. now rewrite (proj2 (Nat.ltb_ge b y)) by lia. }
  set (nx3 := upd nx2 (e - 1) (Some front')) in *. set (pv3 := upd pv2 (e - 1) (e - 2)) in *.
  assert (Lnk : forall i, b <= i < b + 255 -> link nx3 pv3 i (i + 1)).
  { intros i Hi. split; [rewrite FN; unfold e; rewrite (proj2 (Nat.eqb_neq i _)) by lia; rewrite (proj2 (Nat.leb_le b i)), (proj2 (Nat.ltb_lt i _)) by lia; reflexivity|].
    rewrite FP. unfold e. rewrite (proj2 (Nat.ltb_lt b _)), (proj2 (Nat.ltb_lt _ _)) by lia. cbn [andb]. lia. }
  assert (Lend : nth (e - 1) nx3 None = Some front') by (rewrite FN, Nat.eqb_refl; reflexivity).
  assert (Seq : seq b 256 = b :: seq (b + 1) 255) by (replace (b + 1) with (S b) by lia; reflexivity).
  split; [constructor; cbn [fb_check fb_base fb_us fb_ut fb_next fb_prev fb_front]|].
  - unfold nx3. rewrite upd_length, L3, L1. unfold e, b. lia.
  - unfold pv3. rewrite upd_length, L4, L1. unfold e, b. lia.
  - rewrite app_length, repeat_length, Ls. unfold b. lia.
  - rewrite app_length, repeat_length, Lt. unfold b. lia.
  - rewrite Seq. destruct R as [|f l].
    + cbn [app ring]. apply chain_seq; auto. split; [replace (b + 255) with (e - 1) by (unfold e; lia); rewrite Lend; subst front'; reflexivity|]. rewrite FPb by lia. rewrite Pb, Eb. unfold e. lia.
    + destruct HR as [C|(l' & E)]; [discriminate|]. injection E as Ef' _. subst f. cbn [app ring]. apply chain_app. simpl in Rg. pose proof (chain_prev _ _ _ _ _ Rg) as (Ip & _). apply NoDup_cons_iff in ND as ND'. destruct ND' as (Nf & _). destruct (In_ (fb_front st)) as (Lf & _); [now left|]. fold b in Lf. split.
      * destruct (In_ _ Ip) as (Lb & _). fold b in Lb. apply (chain_close (fb_next st) (fb_prev st) nx3 pv3 l (fb_front st) (fb_front st) b Rg); auto.
        -- intros C. destruct (In_ b) as (C' & _); [now right|]. fold b in C'. lia.
        -- intros y Hy Ny. destruct (In_ y Hy) as (Ly & _). fold b in Ly. rewrite FNb, N1 by auto. cbn [andb]. rewrite (proj2 (Nat.eqb_neq _ _)); auto. rewrite Eb. exact Ny.
        -- intros y Hy. destruct (In_ y ltac:(now right)) as (Ly & _). fold b in Ly. rewrite FPb, P1 by lia. cbn [andb]. rewrite (proj2 (Nat.eqb_neq _ _)); auto. intros ->. contradiction.
        -- rewrite FNb, N1 by auto. cbn [andb]. rewrite Eb, Nat.eqb_refl. reflexivity.
        -- rewrite FPb by lia. rewrite Pb, Eb. reflexivity.
      * apply chain_seq; auto. split; [replace (b + 255) with (e - 1) by (unfold e; lia); rewrite Lend; subst front'; reflexivity|]. rewrite FPb by lia. rewrite P1 by auto. cbn [andb]. rewrite Nat.eqb_refl. unfold e. lia.
  - assert (forall l1 l2 : list nat, NoDup l1 -> NoDup l2 -> (forall y, In y l1 -> ~ In y l2) -> NoDup (l1 ++ l2)) as NDapp.
    { induction l1 as [|a l1 IH]; intros l2 H1 H2 H3; simpl; auto. apply NoDup_cons_iff in H1. destruct H1 as (H1 & H1'). constructor; [rewrite in_app_iff; intros [C|C]; [contradiction|apply (H3 a); [now left|auto]]|]. apply IH; auto. intros; apply H3; auto. now right. }
    apply NDapp; auto; [apply seq_NoDup|]. intros y Hy C. apply In_ in Hy. apply in_seq in C. fold b in Hy. lia.
  - intros y Hy. rewrite Ut0. apply in_app_iff in Hy. destruct Hy as [Hy|Hy].
    + apply In_ in Hy. split; [lia|apply Hy].
    + apply in_seq in Hy. split; [unfold b in *; lia|]. apply nth_overflow. lia.
  - intros y Hy Uy Ny. rewrite Ut0 in Uy. rewrite in_app_iff in Ny. assert (Lyb : y < b). { destruct (Nat.lt_ge_cases y b); auto. exfalso. apply Ny. right. apply in_seq. unfold b in *. lia. }
    rewrite FNb, N1 by auto. assert (Ny' : ~ In y R) by tauto. destruct R as [|f l]; cbn [andb]; [apply Out; auto|]. destruct (Nat.eqb_spec y back) as [->|]; [|apply Out; auto].
    exfalso. apply Ny'. rewrite Eb. destruct HR as [C|(l' & E)]; [discriminate|]. injection E as Ef' _. subst f. simpl in Rg. apply (chain_prev _ _ _ _ _ Rg).
  - left. destruct R as [|f l]; rewrite Ef; apply in_app_iff; [right; rewrite Seq; now left|left]. destruct Fr as [Fr|(C & _)]; [auto|discriminate].
  - split.
    + intros y Uy. assert (Ly : y < b). { destruct (Nat.lt_ge_cases y b); auto. rewrite nth_overflow in Uy by lia. discriminate. } rewrite FNb, N1 by auto. destruct R as [|f l]; cbn [andb]; auto. destruct (Nat.eqb_spec y back) as [->|]; auto.
      exfalso. rewrite Eb in Uy. destruct HR as [C|(l' & E)]; [discriminate|]. injection E as Ef' _. subst f. simpl in Rg. destruct (In_ _ (proj1 (chain_prev _ _ _ _ _ Rg))). congruence.
    + intros y Iy Ey. destruct (In_ _ Iy) as (Ly & _). fold b in Ly. rewrite FNb, N1 by auto. destruct R as [|f l]; [destruct Iy|]. cbn [andb]. rewrite Eb. destruct HR as [C|(l' & E)]; [discriminate|]. injection E as Ef' _. subst f. simpl in Rg.
      (* only the predecessor of the front points to the front *)
      assert (y = nth (fb_front st) (fb_prev st) 0) as ->; [|now rewrite Nat.eqb_refl].
      clear - Rg Iy Ey ND. assert (G : forall l' a z, chain (fb_next st) (fb_prev st) a l' z -> ~ In z l' -> In y (a :: l') -> next_at st y = Some z -> y = nth z (fb_prev st) 0).
      { induction l' as [|c l0 IH]; intros a z H Nz Hy E; simpl in H.
        - simpl in Hy. destruct Hy as [Hy|Hy]; [|contradiction]. rewrite <- Hy. symmetry. apply H.
        - destruct H as ((H1 & H2) & H). destruct Hy as [->|Hy]; [|apply (IH c z); auto; intros C; apply Nz; now right]. exfalso. apply Nz. left. congruence. }
      apply (G l (fb_front st)); auto. apply NoDup_cons_iff in ND. apply ND.
Qed.

(** ** _find_base *)
Section Find.
Variable ck : list N.
Hypothesis Hck : forall i, i < length ck -> (nth i ck 0 < 256)%N.
Definition chk (t : nat) : N := nth (t - 1) ck 0%N.
Definition valid (t : nat) : Prop := 1 <= t <= length ck.
Lemma check_ok : forall t, valid t -> fo_check ck t = Ok (chk t).
Proof using ck. clear Hck. intros [|t] (H1 & H2); [lia|]. cbn [fo_check]. unfold chk. rewrite (lget_nth _ ck t 0%N) by lia. do 2 f_equal. lia. Qed.
Lemma chk_lt : forall t, valid t -> (chk t < 256)%N.
Proof. intros t (H1 & H2). apply Hck. lia. Qed.
Lemma slots_free_ok : forall ut q b, length ut = 256 * q -> b < 256 * q -> forall ts, Forall valid ts ->
  exists r, slots_free ck ut b ts = Ok r /\ (r = true <-> forall t, In t ts -> nth (slot b (chk t)) ut false = false).
Proof.
  intros ut q b Lu Lb. induction ts as [|t ts IH]; intros V; cbn [slots_free].
  - exists true. split; auto. split; auto. intros _ t [].
  - inversion V as [|? ? Vt V']; subst. rewrite check_ok by auto. cbn [bind]. pose proof (slot_lt b (chk t) q (chk_lt t Vt) Lb). rewrite (lget_nth _ ut _ false) by lia. cbn [bind]. destruct (nth (slot b (chk t)) ut false) eqn:E.
    + exists false. split; auto. split; [discriminate|]. intros H'. rewrite (H' t) in E by (now left). discriminate E.
    + destruct (IH V') as (r & Er & Hr). exists r. split; auto. rewrite Hr. split; intros H' t' Ht'; [destruct Ht' as [<-|Ht']; auto|apply H'; now right].
Qed.
(** where a state can be placed *)
Definition placeable (st : fob) (q b : nat) (ts : list nat) : Prop := b < 256 * q /\ us_at st b = false /\ forall t, In t ts -> ut_at st (slot b (chk t)) = false.
Lemma try_ok : forall st q R ts idx c0, Free st q R -> fb_check st = ck -> Forall valid ts -> (c0 < 256)%N -> idx < 256 * q ->
  exists ok, (do us <- lget (fb_us st) (slot idx c0); if us then Ok false else slots_free (fb_check st) (fb_ut st) (slot idx c0) ts) = Ok ok /\ (ok = true <-> placeable st q (slot idx c0) ts).
Proof.
  intros st q R ts idx c0 F Ec V Hc Hi. pose proof (slot_lt idx c0 q Hc Hi) as Lb. rewrite (lget_nth _ (fb_us st) _ false) by (rewrite (fr_us _ _ _ F); auto). cbn [bind]. destruct (us_at st (slot idx c0)) eqn:Eu.
  - exists false. split; auto. split; [discriminate|]. intros (_ & C & _). congruence.
  - rewrite Ec. destruct (slots_free_ok (fb_ut st) q (slot idx c0) (fr_ut _ _ _ F) Lb ts V) as (r & Er & Hr). exists r. split; auto. rewrite Hr. split; [intros H; split; auto|intros (_ & _ & H); auto].
Qed.
Definition grown (st st' : fob) (q q' : nat) : Prop :=
  fb_check st' = fb_check st /\ fb_base st' = fb_base st /\ (forall y, us_at st' y = us_at st y) /\ (forall y, ut_at st' y = ut_at st y) /\ (forall y, ut_at st y = true -> next_at st' y = next_at st y) /\ q <= q' <= q + 1.
Lemma grown_refl : forall st q, grown st st q q.
Proof. intros. repeat split; auto; lia. Qed.
Lemma nth_grow : forall (l : list bool) k y, nth y (l ++ repeat false k) false = nth y l false.
Proof.
  intros l k y. destruct (Nat.lt_ge_cases y (length l)); [apply app_nth1; auto|]. rewrite app_nth2 by auto. rewrite (nth_overflow l) by auto. destruct (Nat.lt_ge_cases (y - length l) k); [apply nth_repeat_lt; auto|apply nth_overflow; rewrite repeat_length; auto].
Qed.
Lemma find_loop_unfold : forall fuel c0 ts st index, find_loop (S fuel) c0 ts st index =
  (do ok <- (do us <- lget (fb_us st) (slot index c0); if us then Ok false else slots_free (fb_check st) (fb_ut st) (slot index c0) ts);
   if ok then Ok (st, slot index c0) else
   do n <- lget (fb_next st) index; do n <- some_id n;
   do st <- (if n =? fb_front st then expand_block st else Ok st);
   do n <- lget (fb_next st) index; do n <- some_id n; find_loop fuel c0 ts st n).
Proof. intros. cbn [find_loop]. destruct (lget (fb_us st) (slot index c0)) as [us| | |]; reflexivity. Qed.
Lemma find_loop_ok : forall st q l ts c0, Free st q (fb_front st :: l) -> fb_check st = ck -> Forall valid ts -> (c0 < 256)%N ->
  forall l2 l1 idx fuel, fb_front st :: l = l1 ++ idx :: l2 ->
  (find_loop fuel c0 ts st idx = Fuel /\ fuel <= length l2 + 1) \/
  exists st' q' R' b, find_loop fuel c0 ts st idx = Ok (st', b) /\ Free st' q' R' /\ grown st st' q q' /\ placeable st' q' b ts /\ length R' = S (length l) + 256 * (q' - q).
Proof.
  intros st q l ts c0 F Ec V Hc. induction l2 as [|g l2 IH]; intros l1 idx fuel E; (destruct fuel as [|fuel]; [left; split; auto; lia|]); rewrite find_loop_unfold;
    assert (Ii : In idx (fb_front st :: l)) by (rewrite E; apply in_elt); destruct (fr_in _ _ _ F _ Ii) as (Li & _);
    destruct (try_ok st q _ ts idx c0 F Ec V Hc Li) as (ok & Eok & Hok); rewrite Eok; cbn [bind];
    (destruct ok; [right; exists st, q, (fb_front st :: l), (slot idx c0); split; auto; split; auto; split; [apply grown_refl|]; split; [now apply Hok|simpl; lia]|]);
    pose proof (fr_nx _ _ _ F) as Ln; rewrite (lget_nth _ (fb_next st) idx None) by lia; cbn [bind].
  - (* the last free slot *)
    assert (En : next_at st idx = Some (fb_front st)).
    { pose proof (fr_ring _ _ _ F) as Rg. simpl in Rg. destruct l1 as [|f l1]; simpl in E; injection E as Ef El.
      - subst. simpl in Rg. apply Rg.
      - rewrite El in Rg. apply chain_app in Rg. destruct Rg as (_ & Rg). simpl in Rg. apply Rg. }
    rewrite En. cbn [some_id bind]. rewrite Nat.eqb_refl.
    destruct (expand_ok st q _ F ltac:(right; eauto) ltac:(left; discriminate)) as (st1 & E1 & C1 & B1 & S1 & U1 & Fr1 & F1 & N1 & N2). rewrite E1. cbn [bind]. pose proof (fr_nx _ _ _ F1) as Ln1. rewrite (lget_nth _ (fb_next st1) idx None) by lia. cbn [bind]. rewrite (N2 idx Ii En). cbn [some_id bind].
    assert (Gr : grown st st1 q (S q)) by (repeat split; auto; try lia; intros y; rewrite ?S1, ?U1; apply nth_grow).
    destruct fuel as [|fuel]; [left; split; [reflexivity|cbn [length]; lia]|]. right. rewrite find_loop_unfold. destruct (try_ok st1 (S q) _ ts (256 * q) c0 F1 ltac:(congruence) V Hc ltac:(lia)) as (ok & Eok' & Hok'). rewrite Eok'. cbn [bind].
    assert (P : placeable st1 (S q) (slot (256 * q) c0) ts).
    { pose proof (slot_range (256 * q) c0 q Hc ltac:(lia)) as Sr. split; [lia|]. split; [rewrite S1, nth_grow; apply nth_overflow; rewrite (fr_us _ _ _ F); lia|].
      intros t It. rewrite U1, nth_grow. apply nth_overflow. rewrite (fr_ut _ _ _ F). rewrite Forall_forall in V. pose proof (slot_range (slot (256 * q) c0) (chk t) q (chk_lt t (V t It)) Sr). lia. }
    apply Hok' in P as P'. rewrite P'. exists st1, (S q), ((fb_front st :: l) ++ seq (256 * q) 256), (slot (256 * q) c0). split; auto. split; auto. split; auto. split; auto. rewrite app_length, seq_length. cbn [length]. lia.
  - assert (En : next_at st idx = Some g).
    { pose proof (fr_ring _ _ _ F) as Rg. simpl in Rg. destruct l1 as [|f l1]; simpl in E; injection E as Ef El.
      - subst. simpl in Rg. apply Rg.
      - rewrite El in Rg. apply chain_app in Rg. destruct Rg as (_ & Rg). simpl in Rg. apply Rg. }
    rewrite En. cbn [some_id bind]. assert (Ng : g <> fb_front st).
    { intros C. pose proof (fr_nodup _ _ _ F) as ND. apply NoDup_cons_iff in ND. destruct ND as (ND & _). apply ND. destruct l1 as [|f l1]; simpl in E; injection E as Ef El; rewrite El; [left; auto|]. apply in_app_iff. right. right. left. auto. }
    rewrite (proj2 (Nat.eqb_neq _ _)) by auto. cbn [bind]. rewrite (lget_nth _ (fb_next st) idx None) by lia. cbn [bind]. rewrite En. cbn [some_id bind].
    destruct (IH (l1 ++ [idx]) g fuel) as [(H1 & H2)|H]; [rewrite E, <- app_assoc; reflexivity| |].
    + left. split; auto. cbn [length]. lia.
    + now right.
Qed.
(** with an empty ring the search does not end *)
Lemma find_stuck : forall fuel st q ts c0 t0 l, ts = t0 :: l -> c0 = chk t0 -> valid t0 -> fb_check st = ck -> length (fb_us st) = 256 * q -> length (fb_ut st) = 256 * q -> 0 < length (fb_next st) -> 1 <= q -> (c0 < 256)%N ->
  ut_at st 0 = true -> next_at st 0 = Some 0 -> fb_front st <> 0 -> find_loop fuel c0 ts st 0 = Fuel.
Proof.
  intros fuel st q ts c0 t0 l Et Ec0 V Ec Ls Lt Ln Hq Hc U0 N0 Fr. induction fuel as [|fuel IH]; [reflexivity|]. rewrite find_loop_unfold.
  pose proof (slot_lt 0 c0 q Hc ltac:(lia)) as Lb. rewrite (lget_nth _ (fb_us st) _ false) by lia. cbn [bind].
  assert (E : (if us_at st (slot 0 c0) then Ok false else slots_free (fb_check st) (fb_ut st) (slot 0 c0) ts) = Ok false).
  { destruct (us_at st (slot 0 c0)); auto. rewrite Et, Ec. cbn [slots_free]. rewrite check_ok by auto. cbn [bind]. rewrite <- Ec0, slot_slot. rewrite (lget_nth _ _ 0 false) by lia. cbn [bind]. now rewrite U0. }
  rewrite E. cbn [bind]. rewrite (lget_nth _ (fb_next st) 0 None) by auto. cbn [bind]. rewrite N0. cbn [some_id bind]. rewrite (proj2 (Nat.eqb_neq 0 _)) by auto. cbn [bind]. rewrite (lget_nth _ (fb_next st) 0 None) by auto. cbn [bind]. rewrite N0. cbn [some_id bind]. apply IH.
Qed.
Lemma find_empty : forall fuel st q ts t0 l, ts = t0 :: l -> valid t0 -> fb_check st = ck -> Free st q [] -> 1 <= q -> ut_at st 0 = true -> next_at st 0 = Some 0 -> find_base fuel st ts = Fuel.
Proof.
  intros fuel st q ts t0 l Et V Ec F Hq U0 N0. unfold find_base. rewrite Et. cbn [lget nth_error bind]. rewrite Ec. rewrite check_ok by auto. cbn [bind]. pose proof (chk_lt t0 V) as Hc. assert (Ef : fb_front st = 0) by (destruct (fr_front _ _ _ F) as [[]|(_ & Q)]; auto). rewrite Ef. rewrite <- Et.
  destruct fuel as [|fuel]; [reflexivity|]. rewrite find_loop_unfold. pose proof F as [Ln Lp Ls Lt _ _ _ _ _].
  pose proof (slot_lt 0 (chk t0) q Hc ltac:(lia)) as Lb. rewrite (lget_nth _ (fb_us st) _ false) by lia. cbn [bind].
  assert (E : (if us_at st (slot 0 (chk t0)) then Ok false else slots_free (fb_check st) (fb_ut st) (slot 0 (chk t0)) ts) = Ok false).
  { destruct (us_at st (slot 0 (chk t0))); auto. rewrite Et, Ec. cbn [slots_free]. rewrite check_ok by auto. cbn [bind]. rewrite slot_slot. rewrite (lget_nth _ _ 0 false) by lia. cbn [bind]. now rewrite U0. }
  rewrite E. cbn [bind]. rewrite (lget_nth _ (fb_next st) 0 None) by lia. cbn [bind]. rewrite N0. cbn [some_id bind]. rewrite Ef. cbn [Nat.eqb].
  destruct (expand_ok st q [] F ltac:(left; auto) ltac:(auto)) as (st1 & E1 & C1 & B1 & S1 & U1 & Fr1 & F1 & N1 & _). rewrite E1. cbn [bind]. pose proof F1 as [Ln1 Lp1 Ls1 Lt1 _ _ _ _ _]. rewrite (lget_nth _ (fb_next st1) 0 None) by lia. cbn [bind]. rewrite N1, N0 by auto. cbn [some_id bind].
  apply (find_stuck fuel st1 (S q) ts (chk t0) t0 l); auto; try lia; try congruence.
  - rewrite U1, nth_grow. auto.
  - rewrite N1; auto.
Qed.
Lemma find_base_ok : forall fuel st q R ts t0 l, Free st q R -> fb_check st = ck -> ts = t0 :: l -> Forall valid ts -> 1 <= q -> ut_at st 0 = true -> next_at st 0 = Some 0 ->
  (find_base fuel st ts = Fuel /\ (R = [] \/ fuel <= length R)) \/
  exists st' q' R' b, find_base fuel st ts = Ok (st', b) /\ Free st' q' R' /\ grown st st' q q' /\ placeable st' q' b ts /\ length R' = length R + 256 * (q' - q).
Proof.
  intros fuel st q R ts t0 l F Ec Et V Hq U0 N0. assert (Vt : valid t0) by (rewrite Et in V; now inversion V). destruct R as [|r R].
  - left. split; auto. now apply (find_empty fuel st q ts t0 l).
  - destruct (fr_front _ _ _ F) as [Fr|(C & _)]; [|discriminate]. destruct (Free_at _ _ _ _ F Fr) as (l' & F' & Ll). assert (E0 : find_base fuel st ts = find_loop fuel (chk t0) ts st (fb_front st)) by (unfold find_base; rewrite Et; cbn [lget nth_error bind]; rewrite Ec; rewrite check_ok by auto; reflexivity). rewrite E0.
    destruct (find_loop_ok st q l' ts (chk t0) F' Ec V (chk_lt t0 Vt) l' [] (fb_front st) fuel eq_refl) as [(H1 & H2)|(st' & q' & R' & b & H1 & H2 & H3 & H4 & H5)].
    + left. split; auto. right. lia.
    + right. exists st', q', R', b. rewrite Ll. auto.
Qed.
End Find.
