(** Samc on arbitrary lists of keys, one level: edge lists with the same keys are placed alike. *)
From Coq Require Import List NArith ZArith Arith Bool Lia.
From Verif Require Import Base BitUtilModel BitVectorModel BitVectorProof BitVectorProof2 SamcModel SamcPack SamcLevel SamcSet.
Import ListNotations.
Local Open Scope nat_scope.
Ltac Zify.zify_post_hook ::= idtac.

Definition set_bv (st : level) (v : bitvec) (m : nat) (mp : list (nat * N)) (q : list (nat * list (list N))) : level :=
  {| lv_bv := v; lv_max := m; lv_row := lv_row st; lv_map := mp; lv_queue := q |}.
Lemma places_run : forall h0 h1 c code ms st v', clear_all (lv_bv st) (map (fun e : edge => h0 + tid e + N.to_nat code - h1) ms) = Ok v' ->
  foldM (place h0 h1 c code) ms st = Ok (set_bv st v' (fold_left Nat.max (map (fun e : edge => h0 + tid e + N.to_nat code - h1 + 1) ms) (lv_max st))
    (lv_map st ++ map (fun e : edge => (h0 + tid e + N.to_nat code, c)) ms)
    (lv_queue st ++ if (c =? 0)%N then [] else map (fun e : edge => (h0 + tid e + N.to_nat code, snd e)) ms)).
Proof.
  intros h0 h1 c code. unfold clear_all. induction ms as [|e ms IH]; intros st v' H.
  - cbn [map foldM fold_left] in *. injection H as <-. unfold set_bv. destruct st as [s1 s2 s3 s4 s5]. cbn [lv_bv lv_max lv_row lv_map lv_queue]. destruct (c =? 0)%N; rewrite !app_nil_r; reflexivity.
  - cbn [map foldM] in *. apply bind_Ok_inv in H. destruct H as (v1 & E1 & E2). unfold place at 1. cbv zeta. fold (tid e). rewrite E1. cbn [bind].
    rewrite (IH _ v') by (cbn [lv_bv]; exact E2). unfold set_bv. cbn [lv_bv lv_max lv_row lv_map lv_queue fold_left map]. rewrite <- app_assoc. cbn [app]. do 2 f_equal. destruct (c =? 0)%N; [reflexivity|]. rewrite <- app_assoc. reflexivity.
Qed.
Definition same_shape (a b : level) : Prop := lv_bv b = lv_bv a /\ lv_max b = lv_max a /\ lv_row b = lv_row a.
Definition keyset (E : list edge) : list (N * nat) := map fst E.
Lemma mine_same : forall E F ci, same_set (keyset E) (keyset F) -> same_set (map tid (mine E ci)) (map tid (mine F ci)).
Proof.
  assert (G : forall E F ci x, (forall k, In k (keyset E) -> In k (keyset F)) -> In x (map tid (mine E ci)) -> In x (map tid (mine F ci))).
  { intros E F ci x H Hx. apply in_map_iff in Hx. destruct Hx as (e & <- & He). apply mine_spec in He. destruct He as [He Ec]. assert (Hk : In (fst e) (keyset F)) by (apply H; now apply in_map).
    apply in_map_iff in Hk. destruct Hk as (f & Ef & Hf). apply in_map_iff. exists f. split; [unfold tid; congruence|]. apply mine_spec. split; auto. unfold tc in *. congruence. }
  intros E F ci H x. split; apply G; intros k; apply H.
Qed.
Section Pair.
Variables (h0 h1 : nat) (E F : list edge).
Hypothesis HE : forall e, In e E -> (tc e < 256)%N /\ h0 + tid e < h1.
Hypothesis HS : same_set (keyset E) (keyset F).
(** what one character adds to the map and the queue *)
Definition grown (G : list edge) (ci : nat) (st st1 : level) : Prop :=
  lv_map st1 = lv_map st ++ map (fun e => (posn h0 (lv_row st1) e, tc e)) (mine G ci) /\
  lv_queue st1 = lv_queue st ++ (if (N.of_nat ci =? 0)%N then [] else map (fun e => (posn h0 (lv_row st1) e, snd e)) (mine G ci)) /\
  (forall c, c <> ci -> nth c (lv_row st1) 0%N = nth c (lv_row st) 0%N).
Lemma char_pair : forall legacy D map0 st st' l ci, LInv h0 h1 map0 D st l -> RowOk D (lv_row st) -> ci < 256 -> same_shape st st' ->
  exists st1 st1', char_step legacy h0 h1 E st ci = Ok st1 /\ char_step legacy h0 h1 F st' ci = Ok st1' /\ same_shape st1 st1' /\ grown E ci st st1 /\ grown F ci st' st1'.
Proof.
  intros legacy D map0 st st' l ci I [RL RU] Hci (Sb & Sm & Sr). unfold char_step. cbv zeta. rewrite Sb, Sm, Sr.
  change (filter (fun e : N * nat * list (list N) => (fst (fst e) =? N.of_nat ci)%N) E) with (mine E ci). change (filter (fun e : N * nat * list (list N) => (fst (fst e) =? N.of_nat ci)%N) F) with (mine F ci).
  change (@map (N * nat * list (list N)) nat (fun e => snd (fst e))) with (@map edge nat tid).
  pose proof (mine_same E F ci HS) as HM. set (ids := map tid (mine E ci)) in *. set (ids' := map tid (mine F ci)) in *.
  assert (NIL : forall G s, map tid (mine G ci) = [] -> grown G ci s s).
  { intros G s EI. apply map_eq_nil in EI. unfold grown. rewrite EI. cbn [map]. destruct (N.of_nat ci =? 0)%N; rewrite !app_nil_r; auto. }
  destruct (list_eq_dec Nat.eq_dec ids []) as [EI|NI].
  { assert (EI' : ids' = []) by (apply (same_nil _ ids); auto). rewrite EI, EI'. exists st, st'. split; auto. split; auto. split; [repeat split; auto|]. split; apply NIL; auto. }
  assert (NI' : ids' <> []) by (intros EI'; apply NI; apply (same_nil _ ids'); auto; now apply same_sym).
  rewrite !match_nonempty by assumption. rewrite (max_same ids ids' NI HM), (min_same ids ids' NI HM).
  set (height := 1 + max_index ids - min_index ids).
  assert (MM : min_index ids <= max_index ids) by (apply min_index_le; apply max_index_in; exact NI).
  assert (X : exists bv l1, (if bv_size (lv_bv st) <? lv_max st + height then bv_resize (lv_bv st) (lv_max st + height) true else Ok (lv_bv st)) = Ok bv /\ bv_rep bv l1 /\ lv_max st + height <= length l1 /\
    forall i, i < length l1 -> (nth i l1 false = false <-> exists e, In e D /\ posn h0 (lv_row st) e = h1 + i)).
  { pose proof (li_rep _ _ _ _ _ _ I) as R. destruct R as (Hz & R'). destruct (Nat.ltb_spec (bv_size (lv_bv st)) (lv_max st + height)) as [L|L].
    - destruct (bv_resize_rep _ _ (lv_max st + height) true (li_rep _ _ _ _ _ _ I)) as (bv & -> & R1). eexists. eexists. split; [reflexivity|]. split; [exact R1|].
      rewrite app_length, firstn_length, repeat_length. split; [lia|]. intros i Hi. rewrite nth_resized by lia. destruct (Nat.ltb_spec i (length l)) as [Li|Li]; [apply (li_bits _ _ _ _ _ _ I); exact Li|].
      split; [discriminate|]. intros (e & De & Pe). pose proof (li_range _ _ _ _ _ _ I e De). pose proof (li_max _ _ _ _ _ _ I). lia.
    - exists (lv_bv st), l. split; auto. split; [exact (li_rep _ _ _ _ _ _ I)|]. split; [lia|]. apply (li_bits _ _ _ _ _ _ I). }
  destruct X as (bv & l1 & -> & R1 & L1 & B1). cbn [bind].
  assert (FR : forall i, lv_max st <= i -> i < length l1 -> nth i l1 false = true).
  { intros i Hi Li. destruct (nth i l1 false) eqn:Q; auto. apply B1 in Q; auto. destruct Q as (e & De & Pe). pose proof (li_range _ _ _ _ _ _ I e De). lia. }
  destruct (y_same legacy bv l1 ids ids' (lv_max st) R1 NI HM) as (q & Lq & Y1 & Y2); auto; [unfold height in *; lia|].
  rewrite (min_same ids ids' NI HM) in Y2. rewrite Y1, Y2. cbn [bind].
  assert (Hmin : h0 + min_index ids < h1). { pose proof (min_index_in _ NI) as Hm. unfold ids in Hm at 2. apply in_map_iff in Hm. destruct Hm as (e & <- & He). apply mine_spec in He. destruct He as [He _]. apply HE in He. lia. }
  set (code := Z.to_N (Z.of_nat (h1 - h0) + (Z.of_nat q - Z.of_nat (min_index ids)))).
  assert (Ecode : N.to_nat code = h1 - h0 + q - min_index ids) by (unfold code; lia).
  rewrite lset_Ok by lia. cbn [bind].
  assert (NC : nth ci (upd (lv_row st) ci code) 0%N = code). { rewrite nth_upd, Nat.eqb_refl. cbn [andb]. destruct (Nat.ltb_spec ci (length (lv_row st))); [reflexivity|lia]. }
  assert (PI : forall (f : nat -> nat) , same_set (map (fun e : edge => f (tid e)) (mine E ci)) (map (fun e : edge => f (tid e)) (mine F ci))).
  { intros f x. split; intros Hx; apply in_map_iff in Hx; destruct Hx as (e & <- & He).
    - assert (Hi : In (tid e) ids') by (apply HM; now apply in_map). apply in_map_iff in Hi. destruct Hi as (e' & Q & He'). apply in_map_iff. exists e'. rewrite Q. auto.
    - assert (Hi : In (tid e) ids) by (apply HM; now apply in_map). apply in_map_iff in Hi. destruct Hi as (e' & Q & He'). apply in_map_iff. exists e'. rewrite Q. auto. }
  destruct R1 as (Hz & Hw & Hsm & _).
  destruct (clear_same (map (fun e : edge => h0 + tid e + N.to_nat code - h1) (mine E ci)) (map (fun e : edge => h0 + tid e + N.to_nat code - h1) (mine F ci)) bv) as (v' & C1 & C2).
  - exact Hsm.
  - intros i Hi. apply in_map_iff in Hi. destruct Hi as (e & <- & He). assert (Hid : In (tid e) ids) by (apply in_map; exact He). pose proof (min_index_le _ _ Hid). pose proof (max_index_ge _ _ Hid). unfold height in *.
    pose proof (gws_ge (length l1)). rewrite Hw. lia.
  - apply (PI (fun t => h0 + t + N.to_nat code - h1)).
  - eexists. eexists. split; [apply (places_run h0 h1 (N.of_nat ci) code (mine E ci)); cbn [lv_bv]; exact C1|]. split; [apply (places_run h0 h1 (N.of_nat ci) code (mine F ci)); cbn [lv_bv]; exact C2|].
    assert (GR : forall G s mp qu, grown G ci {| lv_bv := bv; lv_max := s; lv_row := lv_row st; lv_map := mp; lv_queue := qu |} 
       {| lv_bv := v'; lv_max := s; lv_row := upd (lv_row st) ci code; lv_map := mp ++ map (fun e : edge => (h0 + tid e + N.to_nat code, N.of_nat ci)) (mine G ci); 
          lv_queue := qu ++ (if (N.of_nat ci =? 0)%N then [] else map (fun e : edge => (h0 + tid e + N.to_nat code, snd e)) (mine G ci)) |}).
    { intros G s mp qu. unfold grown. cbn [lv_map lv_queue lv_row]. 
      assert (PG : forall e, In e (mine G ci) -> posn h0 (upd (lv_row st) ci code) e = h0 + tid e + N.to_nat code). { intros e He. apply mine_spec in He. destruct He as [_ He]. unfold posn. rewrite He, Nnat.Nat2N.id, NC. reflexivity. }
      split; [|split].
      - f_equal. apply map_ext_in. intros e He. rewrite PG by auto. apply mine_spec in He. destruct He as [_ He]. rewrite He. reflexivity.
      - f_equal. destruct (N.of_nat ci =? 0)%N; auto. apply map_ext_in. intros e He. rewrite PG by auto. reflexivity.
      - intros c Hc. rewrite nth_upd. destruct (Nat.eqb_spec c ci); [congruence|reflexivity]. }
    split; [|split].
    + unfold same_shape, set_bv. cbn [lv_bv lv_max lv_row]. split; auto. split; auto. symmetry. apply fold_max_same. apply (PI (fun t => h0 + t + N.to_nat code - h1 + 1)).
    + apply (GR E (lv_max st) (lv_map st) (lv_queue st)).
    + unfold grown in *. rewrite Sr. apply (GR F (lv_max st) (lv_map st') (lv_queue st')).
Qed.
Hypothesis HD : NoDup (map fst E).
Definition start (m : list (nat * N)) : level := {| lv_bv := bv_default; lv_max := 0; lv_row := repeat 0%N 256; lv_map := m; lv_queue := [] |}.
Definition map_has (m : list (nat * N)) (G : list edge) (k : nat) (st : level) : Prop :=
  forall p c, In (p, c) (lv_map st) <-> In (p, c) m \/ exists e, In e G /\ (tc e < N.of_nat k)%N /\ tc e = c /\ p = posn h0 (lv_row st) e.
Definition queue_has (G : list edge) (k : nat) (st : level) : Prop :=
  forall p ks, In (p, ks) (lv_queue st) <-> exists e, In e G /\ (tc e < N.of_nat k)%N /\ tc e <> 0%N /\ ks = snd e /\ p = posn h0 (lv_row st) e.
Lemma grown_posn : forall G ci st st1 e, grown G ci st st1 -> tc e <> N.of_nat ci -> posn h0 (lv_row st1) e = posn h0 (lv_row st) e.
Proof. intros G ci st st1 e (_ & _ & H) He. unfold posn. rewrite H; auto. lia. Qed.
Lemma grown_map : forall m G k st st1, map_has m G k st -> grown G k st st1 -> map_has m G (S k) st1.
Proof.
  intros m G k st st1 H Hg p c. pose proof (fun e => grown_posn G k st st1 e Hg) as P. destruct Hg as (Hm & _). rewrite Hm, in_app_iff, (H p c), in_map_iff. split.
  - intros [[A|(e & A & B & C & D)]|(e & A & B)]; [auto| |]; right.
    + exists e. rewrite P by lia. repeat split; auto; lia.
    + injection A as <- <-. apply mine_spec in B. destruct B as [B B']. exists e. rewrite B'. repeat split; auto; lia.
  - intros [A|(e & A & B & C & D)]; auto. destruct (N.eq_dec (tc e) (N.of_nat k)) as [Q|Q].
    + right. exists e. split; [congruence|]. apply mine_spec. auto.
    + left. right. exists e. rewrite P in D by auto. repeat split; auto; lia.
Qed.
Lemma grown_queue : forall G k st st1, queue_has G k st -> grown G k st st1 -> queue_has G (S k) st1.
Proof.
  intros G k st st1 H Hg p ks. pose proof (fun e => grown_posn G k st st1 e Hg) as P. destruct Hg as (_ & Hm & _). rewrite Hm, in_app_iff, (H p ks). destruct (N.eqb_spec (N.of_nat k) 0) as [K0|K0].
  - split.
    + intros [(e & A & B & C & D)|[]]. lia.
    + intros (e & A & B & C & D & D'). lia.
  - rewrite in_map_iff. split.
    + intros [(e & A & B & C & D & D')|(e & A & B)].
      * exists e. rewrite P by lia. repeat split; auto; lia.
      * injection A as <- <-. apply mine_spec in B. destruct B as [B B']. exists e. repeat split; auto; lia.
    + intros (e & A & B & C & D & D'). destruct (N.eq_dec (tc e) (N.of_nat k)) as [Q|Q].
      * right. exists e. split; [congruence|]. apply mine_spec. auto.
      * left. exists e. rewrite P in D' by auto. repeat split; auto; lia.
Qed.
Lemma chars_pair : forall legacy m k, k <= 256 -> exists st st' l D, foldM (char_step legacy h0 h1 E) (seq 0 k) (start []) = Ok st /\ foldM (char_step legacy h0 h1 F) (seq 0 k) (start m) = Ok st' /\
  LInv h0 h1 [] D st l /\ RowOk D (lv_row st) /\ (forall e, In e D <-> In e E /\ (tc e < N.of_nat k)%N) /\ same_shape st st' /\ map_has m F k st' /\ queue_has F k st'.
Proof.
  intros legacy m. induction k as [|k IH]; intros Hk.
  - destruct (chars_ok h0 h1 [] E HE HD legacy 0 ltac:(lia)) as (st & l & D & A & B & C & G). exists st, (start m), l, D. split; auto. split; auto. split; auto. split; auto. split; auto. cbn [seq foldM] in A. injection A as <-. split; [repeat split|].
    split; intros p x; cbn [start lv_map lv_queue]; split; auto.
    + intros [A|(e & A & Q & _)]; auto. lia.
    + intros [].
    + intros (e & A & Q & _). lia.
  - destruct IH as (st & st' & l & D & Es & Es' & I & R & HDI & SS & MH & QH); [lia|]. rewrite !seq_S, !foldM_app, Es, Es'. cbn [bind Nat.add foldM].
    destruct (char_ok h0 h1 [] E HE HD legacy D st l k I R ltac:(lia)) as (st1 & l1 & E1 & I1 & R1). { intros e He. apply HDI in He. lia. }
    destruct (char_pair legacy D [] st st' l k I R ltac:(lia) SS) as (s1 & s1' & X1 & X2 & SS1 & G1 & G2). assert (s1 = st1) by congruence. subst s1. rewrite X1, X2. cbn [bind].
    exists st1, s1', l1, (D ++ mine E k). split; auto. split; auto. split; auto. split; auto. split.
    + intros e. rewrite in_app_iff, HDI, mine_spec. split; [intros [[A B]|[A B]]; split; auto; lia|]. intros [A B]. destruct (N.eq_dec (tc e) (N.of_nat k)); [right|left]; split; auto; lia.
    + split; auto. split; [eapply grown_map; eauto|eapply grown_queue; eauto].
Qed.
End Pair.
Definition key_dec : forall a b : N * nat, {a = b} + {a <> b}.
Proof. decide equality; [apply Nat.eq_dec|apply N.eq_dec]. Defined.
Definition canon (F : list edge) : list edge := map (fun k => (k, [])) (nodup key_dec (keyset F)).
Lemma canon_keys : forall F, keyset (canon F) = nodup key_dec (keyset F).
Proof. intros F. unfold keyset, canon at 1. rewrite map_map. cbn [fst]. apply map_id. Qed.
Lemma canon_same : forall F, same_set (keyset (canon F)) (keyset F).
Proof. intros F x. rewrite canon_keys. apply nodup_In. Qed.
(** one level on an arbitrary list of edges *)
Record Placed (h0 h1 : nat) (m : list (nat * N)) (F : list edge) (st : level) : Prop := {
  pl_row : length (lv_row st) = 256;
  pl_range : forall e, In e F -> h1 <= posn h0 (lv_row st) e /\ posn h0 (lv_row st) e < h1 + lv_max st;
  pl_inj : forall e e', In e F -> In e' F -> posn h0 (lv_row st) e = posn h0 (lv_row st) e' -> fst e = fst e';
  pl_map : map_has h0 m F 256 st;
  pl_queue : queue_has h0 F 256 st
}.
Lemma posn_fst : forall h0 row e e', fst e = fst e' -> posn h0 row e = posn h0 row e'.
Proof. intros h0 row e e' H. unfold posn, tid, tc. rewrite H. reflexivity. Qed.
Theorem level_pair : forall legacy h0 h1 F F' m m', (forall e, In e F -> (tc e < 256)%N /\ h0 + tid e < h1) -> same_set (keyset F) (keyset F') ->
  exists st st', foldM (char_step legacy h0 h1 F) (seq 0 256) (start m) = Ok st /\ foldM (char_step legacy h0 h1 F') (seq 0 256) (start m') = Ok st' /\
    lv_max st' = lv_max st /\ lv_row st' = lv_row st /\ Placed h0 h1 m F st /\ Placed h0 h1 m' F' st'.
Proof.
  intros legacy h0 h1 F F' m m' HF HS. set (E := canon F).
  assert (HE : forall e, In e E -> (tc e < 256)%N /\ h0 + tid e < h1).
  { intros e He. assert (Hk : In (fst e) (keyset F)) by (apply canon_same; now apply in_map). apply in_map_iff in Hk. destruct Hk as (f & Q & Hf). unfold tc, tid in *. rewrite <- Q. apply HF. exact Hf. }
  assert (HD : NoDup (map fst E)). { change (map fst E) with (keyset E). unfold E. rewrite canon_keys. apply NoDup_nodup. }
  assert (S1 : same_set (keyset E) (keyset F)) by apply canon_same. assert (S2 : same_set (keyset E) (keyset F')) by (intros x; rewrite (S1 x); apply HS).
  destruct (chars_pair h0 h1 E F HE S1 HD legacy m 256 (le_n _)) as (st & st1 & l & D & A1 & A2 & I & R & HDI & (Q1 & Q2 & Q3) & MH & QH).
  destruct (chars_pair h0 h1 E F' HE S2 HD legacy m' 256 (le_n _)) as (st' & st2 & l' & D' & A1' & A2' & I' & R' & HDI' & (Q1' & Q2' & Q3') & MH' & QH').
  assert (st' = st) by congruence. subst st'.
  assert (PL : forall G x mm, same_set (keyset E) (keyset G) -> lv_max x = lv_max st -> lv_row x = lv_row st -> map_has h0 mm G 256 x -> queue_has h0 G 256 x -> Placed h0 h1 mm G x).
  { intros G x mm SG Xm Xr Xh Xq.
    assert (C : forall e, In e G -> exists d, In d D /\ fst d = fst e).
    { intros e He. assert (Hk : In (fst e) (keyset E)) by (apply SG; now apply in_map). apply in_map_iff in Hk. destruct Hk as (d & Q & Hd). exists d. split; auto. apply HDI. split; auto. apply HE. exact Hd. }
    constructor; auto.
    - rewrite Xr. apply R.
    - intros e He. rewrite Xm, Xr. destruct (C e He) as (d & Hd & Q). rewrite <- (posn_fst h0 _ d e Q). apply (li_range _ _ _ _ _ _ I d Hd).
    - intros e e' He He' P. rewrite Xr in P. destruct (C e He) as (d & Hd & Q). destruct (C e' He') as (d' & Hd' & Q'). rewrite <- (posn_fst h0 _ d e Q), <- (posn_fst h0 _ d' e' Q') in P.
      rewrite <- Q, <- Q'. f_equal. pose proof (li_nodup _ _ _ _ _ _ I) as ND. clear - ND P Hd Hd'. induction D as [|x D IH]; [destruct Hd|]. cbn [map] in ND. inversion ND as [|? ? N1 N2]; subst. destruct Hd as [->|Hd], Hd' as [->|Hd']; auto.
      + exfalso. apply N1. rewrite P. apply in_map. exact Hd'.
      + exfalso. apply N1. rewrite <- P. apply in_map. exact Hd. }
  exists st1, st2. split; auto. split; auto. split; [congruence|]. split; [congruence|]. split; apply PL; auto.
Qed.
