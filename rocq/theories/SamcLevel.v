(** One level of the construction in SamcModel: the nodes are put at distinct places. *)
From Coq Require Import List NArith ZArith Arith Bool Lia.
From Verif Require Import Base BitVectorModel BitVectorProof BitVectorProof2 SamcModel SamcPack.
Import ListNotations.
Local Open Scope nat_scope.

Definition edge := (N * nat * list (list N))%type.
Definition tc (e : edge) : N := fst (fst e).
Definition tid (e : edge) : nat := snd (fst e).
Definition posn (h0 : nat) (row : list N) (e : edge) : nat := h0 + tid e + N.to_nat (nth (N.to_nat (tc e)) row 0%N).

Lemma match_nonempty : forall (A B : Type) (l : list A) (x y : B), l <> [] -> match l with [] => x | _ :: _ => y end = y.
Proof. intros A B [|a l] x y H; [congruence|reflexivity]. Qed.

Section Level.
Variables (h0 h1 : nat) (map0 : list (nat * N)).
Record LInv (D : list edge) (st : level) (l : list bool) : Prop := {
  li_rep : bv_rep (lv_bv st) l;
  li_max : lv_max st <= length l;
  li_bits : forall i, i < length l -> (nth i l false = false <-> exists e, In e D /\ posn h0 (lv_row st) e = h1 + i);
  li_map : lv_map st = map0 ++ map (fun e => (posn h0 (lv_row st) e, tc e)) D;
  li_queue : lv_queue st = map (fun e => (posn h0 (lv_row st) e, snd e)) (filter (fun e => negb (tc e =? 0)%N) D);
  li_range : forall e, In e D -> h1 <= posn h0 (lv_row st) e /\ posn h0 (lv_row st) e < h1 + lv_max st;
  li_nodup : NoDup (map (posn h0 (lv_row st)) D)
}.
Definition RowOk (D : list edge) (row : list N) : Prop := length row = 256 /\ forall c, (forall e, In e D -> tc e <> N.of_nat c) -> nth c row 0%N = 0%N.

Lemma NoDup_snoc : forall (A : Type) (a : list A) x, NoDup a -> ~ In x a -> NoDup (a ++ [x]).
Proof. intros A a x H I. rewrite <- (rev_involutive (a ++ [x])). apply NoDup_rev. rewrite rev_app_distr. cbn [rev app]. constructor; [rewrite <- in_rev; auto|apply NoDup_rev; auto]. Qed.
Lemma nth_set : forall (l : list bool) i b k, i < length l -> nth k (firstn i l ++ b :: skipn (S i) l) false = if k =? i then b else nth k l false.
Proof.
  induction l as [|x l IH]; intros i b k H; [cbn [length] in H; lia|]. destruct i, k; cbn [firstn skipn app nth Nat.eqb]; auto. cbn [length] in H. rewrite <- IH by lia. reflexivity.
Qed.
Lemma set_length : forall (l : list bool) i b, i < length l -> length (firstn i l ++ b :: skipn (S i) l) = length l.
Proof. intros. rewrite app_length, firstn_length. cbn [length]. rewrite skipn_length. lia. Qed.
Lemma place_ok : forall D st l e c code, LInv D st l -> tc e = c -> nth (N.to_nat c) (lv_row st) 0%N = code -> h1 <= posn h0 (lv_row st) e -> posn h0 (lv_row st) e - h1 < length l ->
  ~ In (posn h0 (lv_row st) e) (map (posn h0 (lv_row st)) D) -> exists st' l', place h0 h1 c code st e = Ok st' /\ LInv (D ++ [e]) st' l' /\ lv_row st' = lv_row st /\ length l' = length l.
Proof.
  intros D st l e c code I Ec Ecode H1 HL HN. unfold place. replace (h0 + snd (fst e) + N.to_nat code) with (posn h0 (lv_row st) e) by (unfold posn; rewrite Ec, Ecode; reflexivity).
  set (p := posn h0 (lv_row st) e) in *. destruct (bv_set_rep _ _ (p - h1) false (li_rep _ _ _ I) HL) as (v' & -> & R'). cbn [bind].
  eexists. eexists. split; [reflexivity|]. split; [split; cbn [lv_bv lv_max lv_row lv_map lv_queue]|].
  - exact R'.
  - rewrite set_length by auto. pose proof (li_max _ _ _ I). lia.
  - rewrite set_length by auto. intros i Hi. rewrite nth_set by auto. destruct (Nat.eqb_spec i (p - h1)) as [E|NE].
    + split; auto. intros _. exists e. split; [apply in_or_app; right; left; reflexivity|]. fold p. lia.
    + rewrite (li_bits _ _ _ I i Hi). split; intros (x & X & Y); exists x.
      * split; auto. apply in_or_app. auto.
      * apply in_app_or in X. destruct X as [X|[<-|[]]]; auto. fold p in Y. lia.
  - rewrite (li_map _ _ _ I), map_app, <- app_assoc. fold p. cbn [map]. fold p. rewrite Ec. reflexivity.
  - rewrite (li_queue _ _ _ I), filter_app. cbn [filter]. rewrite Ec. destruct (c =? 0)%N; cbn [negb]; [rewrite app_nil_r; reflexivity|]. rewrite map_app. cbn [map]. fold p. reflexivity.
  - intros x X. apply in_app_or in X. destruct X as [X|[<-|[]]].
    + pose proof (li_range _ _ _ I x X). lia.
    + fold p. lia.
  - rewrite map_app. cbn [map]. fold p. apply NoDup_snoc; auto. apply (li_nodup _ _ _ I).
  - split; auto. apply set_length. auto.
Qed.
Lemma places_ok : forall ms D st l c code, LInv D st l -> (forall e, In e ms -> tc e = c /\ h1 <= posn h0 (lv_row st) e /\ posn h0 (lv_row st) e - h1 < length l /\ ~ In (posn h0 (lv_row st) e) (map (posn h0 (lv_row st)) D)) ->
  nth (N.to_nat c) (lv_row st) 0%N = code -> NoDup (map (posn h0 (lv_row st)) ms) -> exists st' l', foldM (place h0 h1 c code) ms st = Ok st' /\ LInv (D ++ ms) st' l' /\ lv_row st' = lv_row st /\ length l' = length l.
Proof.
  induction ms as [|e ms IH]; intros D st l c code I H Hc ND; cbn [foldM].
  - exists st, l. rewrite app_nil_r. auto.
  - destruct (H e (or_introl eq_refl)) as (A1 & A2 & A3 & A4). destruct (place_ok D st l e c code I A1 Hc A2 A3 A4) as (st1 & l1 & -> & I1 & R1 & L1). cbn [bind].
    cbn [map] in ND. inversion ND as [|x y N1 N2]; subst x y. destruct (IH (D ++ [e]) st1 l1 c code I1) as (st2 & l2 & -> & I2 & R2 & L2).
    + rewrite R1, L1. intros x X. destruct (H x (or_intror X)) as (B1 & B2 & B3 & B4). repeat split; auto. rewrite map_app. intros Y. apply in_app_or in Y. destruct Y as [Y|[Y|[]]]; auto.
      apply N1. rewrite Y. apply in_map. exact X.
    + rewrite R1. exact Hc.
    + rewrite R1. exact N2.
    + exists st2, l2. rewrite <- app_assoc in I2. split; auto. split; auto. split; congruence.
Qed.

Variable E : list edge.
Hypothesis HE : forall e, In e E -> (tc e < 256)%N /\ h0 + tid e < h1.
Hypothesis HD : NoDup (map fst E).
Definition mine (ci : nat) : list edge := filter (fun e => (tc e =? N.of_nat ci)%N) E.
Lemma mine_spec : forall ci e, In e (mine ci) <-> In e E /\ tc e = N.of_nat ci.
Proof. intros. unfold mine. rewrite filter_In. rewrite N.eqb_eq. reflexivity. Qed.
Lemma NoDup_filter_map : forall (l : list edge) f, NoDup (map fst l) -> NoDup (map fst (filter f l)).
Proof.
  clear. induction l as [|e l IH]; intros f H; cbn [filter map]; [constructor|]. cbn [map] in H. inversion H as [|x y H1 H2]; subst. destruct (f e); [|auto]. cbn [map]. constructor; auto.
  intros I. apply H1. apply in_map_iff in I. destruct I as (z & Z1 & Z2). apply filter_In in Z2. apply in_map_iff. exists z. tauto.
Qed.
Lemma posn_upd : forall row ci x D, ci < length row -> (forall e, In e D -> tc e <> N.of_nat ci) -> forall e, In e D -> posn h0 (upd row ci x) e = posn h0 row e.
Proof.
  clear. intros row ci x D L H e I. unfold posn. rewrite nth_upd. destruct (Nat.eqb_spec (N.to_nat (tc e)) ci) as [Q|Q]; [|reflexivity]. exfalso. apply (H e I). lia.
Qed.
Lemma char_ok : forall legacy D st l ci, LInv D st l -> RowOk D (lv_row st) -> ci < 256 -> (forall e, In e D -> tc e <> N.of_nat ci) ->
  exists st' l', char_step legacy h0 h1 E st ci = Ok st' /\ LInv (D ++ mine ci) st' l' /\ RowOk (D ++ mine ci) (lv_row st').
Proof using HE HD.
  intros legacy D st l ci I [RL RU] Hci HDc. unfold char_step. cbv zeta.
  change (filter (fun e : N * nat * list (list N) => (fst (fst e) =? N.of_nat ci)%N) E) with (mine ci). change (@map (N * nat * list (list N)) nat (fun e => snd (fst e))) with (@map edge nat tid).
  set (ids := map tid (mine ci)). destruct (list_eq_dec Nat.eq_dec ids []) as [EI|NI].
  { rewrite EI. unfold ids in EI. apply map_eq_nil in EI. exists st, l. rewrite EI, app_nil_r. split; auto. split; auto. split; auto. }
  rewrite match_nonempty by exact NI.
  set (height := 1 + max_index ids - min_index ids).
  assert (MM : min_index ids <= max_index ids) by (apply min_index_le; apply max_index_in; exact NI).
  assert (X : exists bv l1, (if bv_size (lv_bv st) <? lv_max st + height then bv_resize (lv_bv st) (lv_max st + height) true else Ok (lv_bv st)) = Ok bv /\ bv_rep bv l1 /\ lv_max st + height <= length l1 /\
    forall i, i < length l1 -> (nth i l1 false = false <-> exists e, In e D /\ posn h0 (lv_row st) e = h1 + i)).
  { pose proof (li_rep _ _ _ I) as R. destruct R as (Hz & R'). destruct (Nat.ltb_spec (bv_size (lv_bv st)) (lv_max st + height)) as [L|L].
    - destruct (bv_resize_rep _ _ (lv_max st + height) true (li_rep _ _ _ I)) as (bv & -> & R1). eexists. eexists. split; [reflexivity|]. split; [exact R1|].
      rewrite app_length, firstn_length, repeat_length. split; [lia|]. intros i Hi. rewrite nth_resized by lia. destruct (Nat.ltb_spec i (length l)) as [Li|Li]; [apply (li_bits _ _ _ I); exact Li|].
      split; [discriminate|]. intros (e & De & Pe). pose proof (li_range _ _ _ I e De). pose proof (li_max _ _ _ I). lia.
    - exists (lv_bv st), l. split; auto. split; [exact (li_rep _ _ _ I)|]. split; [lia|]. apply (li_bits _ _ _ I). }
  destruct X as (bv & l1 & -> & R1 & L1 & B1). cbn [bind].
  assert (FR : forall i, lv_max st <= i -> i < length l1 -> nth i l1 false = true).
  { intros i Hi Li. destruct (nth i l1 false) eqn:Q; auto. apply B1 in Q; auto. destruct Q as (e & De & Pe). pose proof (li_range _ _ _ I e De). lia. }
  assert (Y : exists q, (if legacy then y_check_legacy (S (bv_size bv)) ids bv (- Z.of_nat (min_index ids))%Z else y_check ids bv) = Ok (Z.of_nat q - Z.of_nat (min_index ids))%Z /\ q <= lv_max st /\
     forall id, In id ids -> nth (q + (id - min_index ids)) l1 false = true).
  { destruct legacy; [apply y_legacy_ok|apply y_check_ok]; auto; unfold height in *; lia. }
  destruct Y as (q & -> & Lq & Fq). cbn [bind].
  assert (Hmin : h0 + min_index ids < h1). { pose proof (min_index_in _ NI) as Hm. unfold ids in Hm at 2. apply in_map_iff in Hm. destruct Hm as (e & <- & He). apply mine_spec in He. destruct He as [He _]. apply HE in He. lia. }
  set (code := Z.to_N (Z.of_nat (h1 - h0) + (Z.of_nat q - Z.of_nat (min_index ids)))).
  assert (Ecode : N.to_nat code = h1 - h0 + q - min_index ids) by (unfold code; lia).
  rewrite lset_Ok by lia. cbn [bind].
  assert (PU : forall e, In e D -> posn h0 (upd (lv_row st) ci code) e = posn h0 (lv_row st) e) by (apply posn_upd; [lia|exact HDc]).
  assert (NC : nth ci (upd (lv_row st) ci code) 0%N = code). { rewrite nth_upd, Nat.eqb_refl. cbn [andb]. destruct (Nat.ltb_spec ci (length (lv_row st))); [reflexivity|lia]. }
  assert (PM : forall e, In e (mine ci) -> posn h0 (upd (lv_row st) ci code) e = h1 + (q + (tid e - min_index ids))).
  { intros e He. assert (Hid : In (tid e) ids) by (apply in_map; exact He). pose proof (min_index_le _ _ Hid). apply mine_spec in He. destruct He as [_ He]. unfold posn. rewrite He, Nnat.Nat2N.id, NC. lia. }
  set (st1 := {| lv_bv := bv; lv_max := lv_max st; lv_row := upd (lv_row st) ci code; lv_map := lv_map st; lv_queue := lv_queue st |}).
  assert (I1 : LInv D st1 l1).
  { split; cbn [st1 lv_bv lv_max lv_row lv_map lv_queue].
    - exact R1.
    - lia.
    - intros i Hi. rewrite (B1 i Hi). split; intros (e & De & Pe); exists e; split; auto; rewrite PU in *; auto.
    - rewrite (li_map _ _ _ I). f_equal. apply map_ext_in. intros e He. rewrite PU; auto.
    - rewrite (li_queue _ _ _ I). apply map_ext_in. intros e He. apply filter_In in He. rewrite PU; tauto.
    - intros e He. rewrite PU by auto. apply (li_range _ _ _ I e He).
    - rewrite (map_ext_in _ (posn h0 (lv_row st))) by (intros e He; apply PU; exact He). apply (li_nodup _ _ _ I). }
  destruct (places_ok (mine ci) D st1 l1 (N.of_nat ci) code I1) as (st2 & l2 & E2 & I2 & R2 & _).
  - intros e He. cbn [st1 lv_row]. assert (Hid : In (tid e) ids) by (apply in_map; exact He). pose proof (min_index_le _ _ Hid). pose proof (max_index_ge _ _ Hid). rewrite (PM e He).
    split; [apply mine_spec in He; tauto|]. split; [lia|]. unfold height in *. split; [lia|]. intros Y. specialize (Fq _ Hid).
    assert (Z : nth (q + (tid e - min_index ids)) l1 false = false); [|congruence]. apply B1; [lia|]. apply in_map_iff in Y. destruct Y as (x & Y1 & Y2). exists x. split; auto. rewrite PU in Y1; auto.
  - cbn [st1 lv_row]. rewrite Nnat.Nat2N.id. exact NC.
  - cbn [st1 lv_row]. assert (ND : NoDup (map fst (mine ci))) by (apply NoDup_filter_map; exact HD).
    assert (G : forall ms, (forall e, In e ms -> In e (mine ci)) -> NoDup (map fst ms) -> NoDup (map (posn h0 (upd (lv_row st) ci code)) ms)).
    { induction ms as [|e ms IH]; intros Hs N0; cbn [map]; [constructor|]. cbn [map] in N0. inversion N0 as [|x y N1 N2]; subst x y. constructor; [|apply IH; auto; intros; apply Hs; right; auto].
      intros Y. apply N1. apply in_map_iff in Y. destruct Y as (x & Y1 & Y2). assert (Hx := Hs x (or_intror Y2)). assert (He := Hs e (or_introl eq_refl)). rewrite (PM x Hx), (PM e He) in Y1.
      assert (A1 : In (tid x) ids) by (apply in_map; exact Hx). assert (A2 : In (tid e) ids) by (apply in_map; exact He). pose proof (min_index_le _ _ A1). pose proof (min_index_le _ _ A2).
      apply mine_spec in Hx. apply mine_spec in He. apply in_map_iff. exists x. split; auto. destruct Hx as [_ Hx], He as [_ He]. unfold tc in Hx, He. unfold tid in *. destruct x as [[xc xi] xk], e as [[ec ei] ek]. cbn [fst snd] in *. subst. f_equal. lia. }
    apply G; auto.
  - exists st2, l2. split; auto. split; auto. rewrite R2. cbn [st1 lv_row]. split; [rewrite upd_length; exact RL|]. intros c Hc. rewrite nth_upd. destruct (Nat.eqb_spec c ci) as [->|Q].
    + exfalso. pose proof (min_index_in _ NI) as Hm. unfold ids in Hm at 2. apply in_map_iff in Hm. destruct Hm as (e & _ & He). apply (Hc e); [apply in_or_app; right; exact He|]. apply mine_spec in He. tauto.
    + cbn [andb]. apply RU. intros e He. apply Hc. apply in_or_app. left. exact He.
Qed.
Lemma chars_ok : forall legacy k, k <= 256 -> exists st l D, foldM (char_step legacy h0 h1 E) (seq 0 k) {| lv_bv := bv_default; lv_max := 0; lv_row := repeat 0%N 256; lv_map := map0; lv_queue := [] |} = Ok st /\
  LInv D st l /\ RowOk D (lv_row st) /\ forall e, In e D <-> In e E /\ (tc e < N.of_nat k)%N.
Proof using HE HD.
  intros legacy. induction k as [|k IH]; intros Hk.
  - eexists. exists [], []. split; [reflexivity|]. split; [split; cbn [lv_bv lv_max lv_row lv_map lv_queue]|].
    + apply bv_default_rep.
    + reflexivity.
    + intros i Hi. cbn [length] in Hi. lia.
    + rewrite app_nil_r. reflexivity.
    + reflexivity.
    + intros e [].
    + constructor.
    + split; [split; cbn [lv_row]; [apply repeat_length|]|]. { intros c _. destruct (lt_dec c 256); [apply nth_repeat_lt; auto|apply nth_overflow; rewrite repeat_length; lia]. }
      intros e. split; [intros []|]. intros [_ H]. lia.
  - destruct IH as (st & l & D & Es & I & R & HDI); [lia|]. rewrite seq_S, foldM_app, Es. cbn [bind Nat.add foldM].
    destruct (char_ok legacy D st l k I R ltac:(lia)) as (st' & l' & Es' & I' & R'). { intros e He. apply HDI in He. lia. }
    rewrite Es'. cbn [bind]. exists st', l', (D ++ mine k). split; auto. split; auto. split; auto. intros e. rewrite in_app_iff, HDI, mine_spec. split; [intros [[A B]|[A B]]; split; auto; lia|]. intros [A B]. destruct (N.eq_dec (tc e) (N.of_nat k)); [right|left]; split; auto; lia.
Qed.
Theorem level_ok : forall legacy, exists st l D, foldM (char_step legacy h0 h1 E) (seq 0 256) {| lv_bv := bv_default; lv_max := 0; lv_row := repeat 0%N 256; lv_map := map0; lv_queue := [] |} = Ok st /\
  LInv D st l /\ RowOk D (lv_row st) /\ forall e, In e D <-> In e E.
Proof using HE HD.
  intros legacy. destruct (chars_ok legacy 256 (le_n _)) as (st & l & D & A & B & C & F). exists st, l, D. split; auto. split; auto. split; auto. intros e. rewrite F. split; [tauto|]. intros H. split; auto. apply HE. exact H.
Qed.
End Level.
