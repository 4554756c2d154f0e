(** SundayMS: the table of shifts and the windows inspected, exactly. *)
From Coq Require Import List NArith ZArith Arith Bool Lia Permutation Sorted.
From Verif Require Import Base Spec4 MatchSpec Spec25 PatternModel PatternProof KmpProof SundayProof MatchProof.
Import ListNotations.
Local Open Scope nat_scope.

(** ** the order of the positions *)
Lemma last_same_spec : forall key c cnt j, last_same key c cnt = Ok j -> cnt <= length key ->
  (exists x, last_below key cnt c x /\ j = x + 1) \/ (absent_below key cnt c /\ j = 0).
Proof.
  intros key c. induction cnt as [|k IH]; intros j E H; cbn [last_same] in E.
  - right. split; [intros x Hx; lia|congruence].
  - rewrite (lget_nth _ key k 0%N) in E by lia. cbn [bind] in E. destruct (N.eqb_spec (nth k key 0%N) c) as [Ek|Nk].
    + left. exists k. split; [split; [lia|split; [auto|intros x Hx; lia]]|injection E as <-; lia].
    + destruct (IH j E ltac:(lia)) as [(x & (X1 & X2 & X3) & Ej)|(A & Ej)].
      * left. exists x. split; auto. split; [lia|]. split; auto. intros y Hy. destruct (Nat.eq_dec y k) as [->|]; auto. apply X3. lia.
      * right. split; auto. intros y Hy. destruct (Nat.eq_dec y k) as [->|]; auto. apply A. lia.
Qed.
Lemma own_shift_fun : forall key i d d', own_shift key i d -> own_shift key i d' -> d = d'.
Proof.
  intros key i d d' [(j & (J1 & J2 & J3) & ->)|(A & ->)] [(j' & (K1 & K2 & K3) & ->)|(A' & ->)]; auto.
  - f_equal. destruct (Nat.lt_trichotomy j j') as [C|[C|C]]; auto; exfalso; [apply (J3 j')|apply (K3 j)]; auto.
  - exfalso. apply (A' j); auto.
  - exfalso. apply (A j'); auto.
Qed.
Lemma min_shifts_spec : forall key, exists ms, min_shifts key = Ok ms /\ length ms = length key /\ forall i, i < length key -> own_shift key i (nth i ms 0).
Proof.
  intros key. unfold min_shifts.
  assert (G : forall k, k <= length key -> exists ms, mapM (fun i => do c <- lget key i; do j1 <- last_same key c i; Ok (i + 1 - j1)) (seq (length key - k) k) = Ok ms /\ length ms = k /\ forall i, i < k -> own_shift key (length key - k + i) (nth i ms 0)).
  { induction k as [|k IH]; intros Hk; [exists []; split; [reflexivity|split; [reflexivity|intros; lia]]|]. destruct IH as (ms & E & L & H); [lia|]. cbn [seq mapM]. set (a := length key - S k) in *. replace (length key - k) with (S a) in * by lia.
    rewrite (lget_nth _ key a 0%N) by lia. cbn [bind]. destruct (last_same_ok key (nth a key 0%N) a ltac:(lia)) as (j & Ej & Lj). rewrite Ej. cbn [bind]. rewrite E. cbn [bind]. eexists. split; [reflexivity|]. split; [cbn [length]; lia|].
    intros i Hi. destruct i as [|i]; cbn [nth].
    - rewrite Nat.add_0_r. destruct (last_same_spec _ _ _ _ Ej ltac:(lia)) as [(x & X & ->)|(A & ->)]; [left; exists x; split; auto; lia|right; split; auto; lia].
    - replace (a + S i) with (S a + i) by lia. apply H. lia. }
  destruct (G (length key) (le_n _)) as (ms & E & L & H). rewrite Nat.sub_diag in E, H. exists ms. auto.
Qed.
Lemma before_trans : forall key a b c, before key a b -> before key b c -> before key a c.
Proof.
  intros key a b c (da & db & A & B & H) (db' & dc & B' & C & H'). rewrite (own_shift_fun _ _ _ _ B' B) in H'. exists da, dc. split; auto. split; auto. lia.
Qed.
Lemma before_irrefl : forall key a, ~ before key a a.
Proof. intros key a (d & d' & A & B & H). rewrite (own_shift_fun _ _ _ _ A B) in H. lia. Qed.
Section Sort.
Variable key : list N.
Variable ms : list nat.
Hypothesis Hms : forall i, i < length key -> own_shift key i (nth i ms 0).
Lemma less_before : forall l r, fst l < length key -> fst r < length key -> pat_less ms l r = true -> before key (fst l) (fst r).
Proof.
  intros l r Hl Hr E. exists (nth (fst l) ms 0), (nth (fst r) ms 0). split; auto. split; auto. unfold pat_less in E. cbv zeta in E. destruct (Nat.eqb_spec (nth (fst l) ms 0) (nth (fst r) ms 0)) as [Q|Q]; cbn [negb] in E.
  - right. split; auto. now apply Nat.ltb_lt.
  - left. now apply Nat.ltb_lt.
Qed.
Lemma less_not : forall l r, fst l < length key -> fst r < length key -> fst l <> fst r -> pat_less ms l r = false -> before key (fst r) (fst l).
Proof.
  intros l r Hl Hr Ne E. exists (nth (fst r) ms 0), (nth (fst l) ms 0). split; auto. split; auto. unfold pat_less in E. cbv zeta in E. destruct (Nat.eqb_spec (nth (fst l) ms 0) (nth (fst r) ms 0)) as [Q|Q]; cbn [negb] in E; apply Nat.ltb_ge in E; [right|left]; lia.
Qed.
Lemma insert_sorted : forall x l, fst x < length key -> Forall (fun y => fst y < length key /\ fst x <> fst y) l -> StronglySorted (fun a b => before key (fst a) (fst b)) l ->
  StronglySorted (fun a b => before key (fst a) (fst b)) (sort_insert (pat_less ms) x l).
Proof using Hms.
  intros x l Hx. induction l as [|y l IH]; intros F S1; cbn [sort_insert]; [repeat constructor|]. inversion F as [|? ? (F1 & F2) F3]; subst. inversion S1 as [|? ? S2 S3]; subst. destruct (pat_less ms x y) eqn:E.
  - constructor; auto. constructor; [now apply less_before|]. rewrite Forall_forall in *. intros z Iz. eapply before_trans; [apply less_before; eauto|]. now apply S3.
  - constructor; [apply IH; auto|]. apply Forall_forall. intros z Iz. apply (Permutation_in _ (sort_insert_perm _ x l)) in Iz. destruct Iz as [<-|Iz]; [now apply less_not|]. rewrite Forall_forall in S3. now apply S3.
Qed.
Lemma sort_sorted : forall l, Forall (fun y => fst y < length key) l -> NoDup (map fst l) -> StronglySorted (fun a b => before key (fst a) (fst b)) (sort_pats (pat_less ms) l).
Proof using Hms.
  unfold sort_pats. induction l as [|x l IH]; intros F D; cbn [fold_right]; [constructor|]. inversion F; subst. cbn [map] in D. inversion D as [|? ? D1 D2]; subst. apply insert_sorted; auto. apply Forall_forall. intros y Iy. pose proof (sort_pats_perm (pat_less ms) l) as P. unfold sort_pats in P. apply (Permutation_in _ P) in Iy.
  rewrite Forall_forall in H2. split; [now apply H2|]. intros C. apply D1. rewrite C. now apply in_map.
Qed.
End Sort.
Lemma map_fst_combine : forall (key : list N) s, map fst (combine (seq s (length key)) key) = seq s (length key).
Proof. induction key as [|c key IH]; intros s; [reflexivity|]. cbn [length seq combine map fst]. now rewrite IH. Qed.
Lemma make_order : forall key, exists pats, sunday_make key = Ok pats /\ pats_of key pats /\ scan_order key (map fst pats).
Proof.
  intros key. destruct (sunday_make_ok key) as (pats & E & Hp). exists pats. split; auto. split; auto. destruct (min_shifts_spec key) as (ms & Em & Lm & Hms). unfold sunday_make in E. rewrite Em in E. cbn [bind] in E. assert (Ep : pats = sort_pats (pat_less ms) (combine (seq 0 (length key)) key)) by congruence. rewrite Ep.
  pose proof (sort_pats_perm (pat_less ms) (combine (seq 0 (length key)) key)) as P. split.
  - eapply Permutation_trans; [apply Permutation_map; exact P|]. rewrite map_fst_combine. apply Permutation_refl.
  - assert (S1 : StronglySorted (fun a b : nat * N => before key (fst a) (fst b)) (sort_pats (pat_less ms) (combine (seq 0 (length key)) key))).
    { apply sort_sorted; auto; [|rewrite map_fst_combine; apply seq_NoDup]. apply Forall_forall. intros y Iy. apply (in_map fst) in Iy. rewrite map_fst_combine in Iy. apply in_seq in Iy. lia. }
    clear - S1. induction S1 as [|a l S1 IH F]; cbn [map]; constructor; auto. rewrite Forall_forall in *. intros b Ib. apply in_map_iff in Ib. destruct Ib as (y & <- & Iy). now apply F.
Qed.
Lemma sorted_unique : forall key l l', StronglySorted (before key) l -> StronglySorted (before key) l' -> Permutation l l' -> l = l'.
Proof.
  intros key. induction l as [|a l IH]; intros l' S1 S2 P; [apply Permutation_nil in P; auto|]. destruct l' as [|b l']; [apply Permutation_sym, Permutation_nil in P; discriminate|]. inversion S1 as [|? ? S1' F1]; subst. inversion S2 as [|? ? S2' F2]; subst. rewrite Forall_forall in F1, F2.
  assert (Eab : a = b).
  { assert (Ia : In a (b :: l')) by (apply (Permutation_in _ P); now left). assert (Ib : In b (a :: l)) by (apply (Permutation_in _ (Permutation_sym P)); now left). destruct Ia as [|Ia]; [auto|]. destruct Ib as [|Ib]; [auto|]. exfalso. apply (before_irrefl key a). apply (before_trans key a b a); [apply F1; exact Ib|apply F2; exact Ia]. }
  subst b. f_equal. apply IH; auto. eapply Permutation_cons_inv; eauto.
Qed.
Theorem order_exists : forall key, exists order, scan_order key order /\ forall order', scan_order key order' -> order' = order.
Proof.
  intros key. destruct (make_order key) as (pats & _ & _ & O). exists (map fst pats). split; auto. intros o' (P & S1). apply (sorted_unique key); auto; [apply O|]. eapply Permutation_trans; [exact P|]. apply Permutation_sym. apply O.
Qed.

(** ** the table of shifts *)
Section Table.
Variable key text : list N.
Variable pats : list (nat * N).
Hypothesis Hp : pats_of key pats.
Hypothesis Hk : bytes_below 128 key.
Hypothesis Hn : (N.of_nat (length text) < 2 ^ 64)%N.
Let m := length key.
Let order := map fst pats.
Lemma off_order : forall q, fst (nth q pats (0, 0%N)) = nth q order 0.
Proof. intros q. unfold order. symmetry. exact (map_nth fst pats (0, 0%N) q). Qed.
Lemma fits_far : forall pos l, pos <= m -> m <= l -> fits key pats l pos.
Proof using Hp Hk Hn. intros pos l H1 H2 q Hq Ll. exfalso. pose proof (off_lt key pats Hp q ltac:(fold m; lia)) as L. cbn beta in L. fold m in L. lia. Qed.
Lemma match_shift_fits : forall pos, pos <= m -> forall fuel l l', match_shift fuel key pats pos l = Ok l' -> fits key pats l' pos.
Proof using Hp Hk Hn.
  intros pos Hpos. induction fuel as [|fuel IH]; intros l l' E; cbn [match_shift] in E; fold m in E; destruct (Nat.ltb_spec l m) as [L|L]; try discriminate; try (injection E as <-; apply fits_far; lia).
  destruct (shift_fits_ok key text pats Hp Hk Hn l pos Hpos) as (b & Eb & Hb). rewrite Eb in E. cbn [bind] in E. destruct b; [injection E as <-; now apply Hb|eauto].
Qed.
Definition clash (pos l : nat) : Prop := l <= fst (nth pos pats (0, 0%N)) -> nth (fst (nth pos pats (0, 0%N)) - l) key 0%N <> nth (fst (nth pos pats (0, 0%N))) key 0%N.
Lemma improve_fits : forall pos, pos < m -> forall fuel l l', fits key pats l pos -> improve_shift fuel key pats pos l = Ok l' -> fits key pats l' pos /\ clash pos l'.
Proof using Hp Hk Hn.
  intros pos Hpos. pose proof (proj1 Hp) as Lp. fold m in Lp. pose proof (off_lt key pats Hp pos Hpos) as Lo. cbn beta in Lo. fold m in Lo.
  induction fuel as [|fuel IH]; intros l l' F E; cbn [improve_shift] in E; fold m in E; destruct (Nat.ltb_spec l m) as [L|L]; try discriminate; try (injection E as <-; split; [auto|intros C; lia]).
  rewrite (lget_nth _ pats pos (0, 0%N)) in E by lia. cbn [bind] in E. destruct (Nat.ltb_spec (fst (nth pos pats (0, 0%N))) l) as [L2|L2]; [injection E as <-; split; [auto|intros C; lia]|].
  rewrite (lget_nth _ key _ 0%N) in E by (fold m; lia). cbn [bind] in E. rewrite (same_char_key key pats Hp Hk pos) in E by auto. cbn beta in E.
  destruct (N.eqb_spec (nth (fst (nth pos pats (0, 0%N))) key 0%N) (nth (fst (nth pos pats (0, 0%N)) - l) key 0%N)) as [Eq|Nq]; cbn [negb] in E; [|injection E as <-; split; [auto|intros _ C; auto]].
  apply bind_Ok_inv in E. destruct E as (l1 & E1 & E). eapply IH; [|exact E]. eapply match_shift_fits; [|exact E1]. lia.
Qed.
Lemma ms_make_fits : forall td2, ms_make key pats = Ok td2 -> forall pos, pos <= m -> 1 <= nth pos td2 0 /\ fits key pats (nth pos td2 0) pos /\ (pos < m -> clash pos (nth pos td2 0)).
Proof using Hp Hk Hn.
  intros td2 E. unfold ms_make in E. fold m in E. pose proof (proj1 Hp) as Lp. fold m in Lp. rewrite lset_Ok in E by (rewrite repeat_length; lia). cbn [bind] in E.
  assert (G1 : forall k, k <= m -> exists t, foldM (fun td2 pos => do l <- lget td2 (pos - 1); do l <- match_shift (S m) key pats pos l; lset td2 pos l) (seq 1 k) (upd (repeat 0 (m + 1)) 0 1) = Ok t /\ length t = m + 1 /\ forall pos, pos <= k -> 1 <= nth pos t 0 /\ fits key pats (nth pos t 0) pos).
  { induction k as [|k IH]; intros Hk'.
    - eexists. split; [reflexivity|]. rewrite upd_length, repeat_length. split; auto. intros pos Hpos. assert (pos = 0) by lia. subst. rewrite nth_upd, repeat_length, (proj2 (Nat.ltb_lt _ _)) by lia. cbn. split; [lia|]. intros q Hq. lia.
    - destruct (IH ltac:(lia)) as (t & E' & L & F). rewrite seq_S, foldM_app, E'. cbn [bind foldM plus]. rewrite Nat.sub_succ, Nat.sub_0_r. rewrite (lget_nth _ t k 0) by lia. cbn [bind].
      destruct (match_shift_ok key text pats Hp Hk Hn (S k) ltac:(fold m; lia) (S m) (nth k t 0) ltac:(fold m; lia)) as (l' & El & L' & _). rewrite El. cbn [bind]. rewrite lset_Ok by lia. cbn [bind]. eexists. split; [reflexivity|]. rewrite upd_length. split; auto.
      intros pos Hpos. rewrite nth_upd. destruct (Nat.eqb_spec pos (S k)) as [->|].
      + rewrite (proj2 (Nat.ltb_lt _ _)) by lia. cbn [andb]. destruct (F k (le_n _)) as (F1 & _). split; [lia|]. eapply match_shift_fits; [|exact El]. lia.
      + cbn [andb]. apply F. lia. }
  destruct (G1 m (le_n _)) as (t & E1 & L1 & F1). rewrite E1 in E. cbn [bind] in E. clear E1 G1. rewrite Lp in E.
  assert (G2 : forall k, k <= m -> exists t', foldM (fun td2 pos => do l <- lget td2 pos; do l <- improve_shift (S m) key pats pos l; lset td2 pos l) (seq 0 k) t = Ok t' /\ length t' = m + 1 /\ (forall pos, pos <= m -> 1 <= nth pos t' 0 /\ fits key pats (nth pos t' 0) pos) /\ (forall pos, pos < k -> clash pos (nth pos t' 0))).
  { induction k as [|k IH]; intros Hk'.
    - exists t. split; auto. split; auto. split; auto. intros; lia.
    - destruct (IH ltac:(lia)) as (t' & E' & L' & F' & C'). rewrite seq_S, foldM_app, E'. cbn [bind foldM plus]. rewrite (lget_nth _ t' k 0) by lia. cbn [bind].
      destruct (improve_ok key text pats Hp Hk Hn k ltac:(fold m; lia) (S m) (nth k t' 0) ltac:(fold m; lia)) as (l' & El & L2 & _). rewrite El. cbn [bind]. rewrite lset_Ok by lia. cbn [bind]. destruct (F' k ltac:(lia)) as (A1 & A2). destruct (improve_fits k ltac:(lia) _ _ _ A2 El) as (B1 & B2). eexists. split; [reflexivity|]. rewrite upd_length. split; auto. split.
      + intros pos Hpos. rewrite nth_upd. destruct (Nat.eqb_spec pos k) as [->|]; [rewrite (proj2 (Nat.ltb_lt _ _)) by lia; cbn [andb]; split; [lia|auto]|cbn [andb]; now apply F'].
      + intros pos Hpos. rewrite nth_upd. destruct (Nat.eqb_spec pos k) as [->|]; [rewrite (proj2 (Nat.ltb_lt _ _)) by lia; cbn [andb]; auto|cbn [andb]; apply C'; lia]. }
  destruct (G2 m (le_n _)) as (t' & E2 & L2 & F2 & C2). rewrite E2 in E. injection E as <-. intros pos Hpos. destruct (F2 pos Hpos). auto.
Qed.
Lemma plausible_iff : forall pos d, plausible key order pos d <-> fits key pats d pos /\ (pos < m -> clash pos d).
Proof.
  intros pos d. unfold plausible, fits, clash. rewrite off_order. fold m. split; intros (A & B); (split; [|exact B]); intros q Hq L.
  - rewrite off_order in *. auto.
  - specialize (A q Hq). rewrite off_order in A. auto.
Qed.
Lemma ms_table : exists td2, ms_make key pats = Ok td2 /\ length td2 = m + 1 /\ td2_ok (skippable key pats) td2 (m + 1) /\ forall pos, pos <= m -> seen_shift key order pos (nth pos td2 0).
Proof using Hp Hk Hn.
  destruct (ms_make_ok key text pats Hp Hk Hn) as (td2 & E & L & T). exists td2. split; auto. split; auto. split; auto. intros pos Hpos. destruct (ms_make_fits td2 E pos Hpos) as (A & B & C). split; auto. split; [now apply plausible_iff|].
  intros d' Hd P. apply plausible_iff in P. destruct P as (P1 & P2). destruct (T pos ltac:(fold m; lia) d' Hd) as [S1|(S1 & S2 & S3)]; [contradiction|]. apply (P2 S1 S2 S3).
Qed.
Lemma stopped_agreeing : forall i pos, stopped key text pats i pos <-> agreeing key text order i pos.
Proof.
  intros i pos. unfold stopped, agreeing. rewrite off_order. fold m. split; intros (A & B & C); (split; [auto|split; [|auto]]); intros q Hq; specialize (B q Hq); rewrite off_order in *; auto.
Qed.
Lemma agreeing_fun : forall i p p', agreeing key text order i p -> agreeing key text order i p' -> p = p'.
Proof.
  intros i p p' (A & B & C) (A' & B' & C'). destruct (Nat.lt_trichotomy p p') as [L|[L|L]]; auto; exfalso.
  - apply C; [lia|]. now apply B'.
  - apply C'; [lia|]. now apply B.
Qed.
Lemma seen_fun : forall pos d d', seen_shift key order pos d -> seen_shift key order pos d' -> d = d'.
Proof.
  intros pos d d' (A & B & C) (A' & B' & C'). destruct (Nat.lt_trichotomy d d') as [L|[L|L]]; auto; exfalso.
  - apply (C' d); auto.
  - apply (C d'); auto.
Qed.
End Table.
Lemma behind_fun : forall key c d d', behind_shift key c d -> behind_shift key c d' -> d = d'.
Proof.
  intros key c d d' [(j & (J1 & J2 & J3) & ->)|(A & ->)] [(j' & (K1 & K2 & K3) & ->)|(A' & ->)]; auto.
  - f_equal. destruct (Nat.lt_trichotomy j j') as [C|[C|C]]; auto; exfalso; [apply (J3 j')|apply (K3 j)]; auto.
  - exfalso. apply (A' j); auto.
  - exfalso. apply (A j'); auto.
Qed.

Section Windows.
Variable key text : list N.
Variable pats : list (nat * N).
Hypothesis Hp : pats_of key pats.
Hypothesis Hk : bytes_below 128 key.
Hypothesis Ht : bytes_below 256 text.
Hypothesis Hn : (N.of_nat (length text) < 2 ^ 64)%N.
Let m := length key.
Hypothesis Hm : m <= length text.
Variable td1 td2 : list nat.
Hypothesis Lt : length td1 = 255.
Hypothesis T : forall c, N.to_nat c < 255 -> (exists j, last_at key m c j /\ nth (N.to_nat c) td1 0 = m - j) \/ ((forall j, j < m -> nth j key 0%N <> c) /\ nth (N.to_nat c) td1 0 = m + 1).
Hypothesis L2 : length td2 = m + 1.
Hypothesis T2 : td2_ok (skippable key pats) td2 (m + 1).
Hypothesis S2 : forall pos, pos <= m -> seen_shift key (map fst pats) pos (nth pos td2 0).
Lemma Ew' : wsub (N.of_nat (length text)) (N.of_nat m) = N.of_nat (length text - m).
Proof using Hn Hm. clear - Hn Hm. unfold wsub. replace (N.of_nat (length text) + 2 ^ 64 - N.of_nat m)%N with (N.of_nat (length text - m) + 1 * 2 ^ 64)%N by lia. rewrite N.mod_add by discriminate. apply N.mod_small. lia. Qed.
Let order := map fst pats.
Lemma behind_ok : forall c, N.to_nat c < 255 -> behind_shift key c (nth (N.to_nat c) td1 0).
Proof using T. intros c Hc. destruct (T c Hc) as [(j & J & ->)|(J & ->)]; [left; exists j; split; auto|right; split; auto]. Qed.
Lemma reaches_le : forall i w, ms_reaches key text order i w -> i <= w.
Proof. intros i w R. induction R; lia. Qed.
Lemma ms_loop : forall fuel i, S (length text) - i <= fuel ->
  (sunday_loop fuel m pats td1 (lget td2) text i = UB <-> exists w, ms_reaches key text order i w /\ w + m < length text /\ nth (w + m) text 0%N = 255%N).
Proof using All.
  pose proof Ew' as Ew. induction fuel as [|fuel IH]; intros i Hf; cbn [sunday_loop]; rewrite Ew; destruct (N.leb_spec (N.of_nat i) (N.of_nat (length text - m))); try lia;
    try (split; [discriminate|intros (w & R & Hw & _); apply reaches_le in R; lia]).
  assert (Hi : i + m <= length text) by lia. destruct (sunday_pos_ok key text pats Hp Hk Hn i Hi) as (pos & E & St). rewrite E. cbn [bind]. destruct (Nat.eqb_spec (i + m) (length text)) as [El|Nl].
  - cbn [bind]. split; [discriminate|]. intros (w & R & Hw & _). apply reaches_le in R. lia.
  - rewrite (lget_nth _ text (i + m) 0%N) by lia. cbn [bind]. pose proof (bytes_below_nth _ _ (i + m) Ht ltac:(lia)) as Bc. destruct (N.eq_dec (nth (i + m) text 0%N) 255) as [E5|N5].
    + assert (X : lget td1 (N.to_nat (nth (i + m) text 0%N)) = UB) by (apply lget_UB; rewrite E5, Lt; lia). rewrite X. cbn [bind]. split; [intros _|auto]. exists i. split; [constructor|split; [lia|auto]].
    + rewrite (lget_nth _ td1 _ 0) by (rewrite Lt; lia). cbn [bind]. assert (Lpos : pos <= m) by (destruct St; auto). rewrite (lget_nth _ td2 pos 0) by lia. cbn [bind].
      pose proof (behind_ok (nth (i + m) text 0%N) ltac:(lia)) as B1. pose proof (S2 pos Lpos) as B2. set (d1 := nth (N.to_nat (nth (i + m) text 0%N)) td1 0) in *. set (d2 := nth pos td2 0) in *.
      assert (D2 : 1 <= d2) by (destruct B2; auto). specialize (IH (i + Nat.max d1 d2) ltac:(lia)).
      assert (Eq : (exists w, ms_reaches key text order i w /\ w + m < length text /\ nth (w + m) text 0%N = 255%N) <-> exists w, ms_reaches key text order (i + Nat.max d1 d2) w /\ w + m < length text /\ nth (w + m) text 0%N = 255%N).
      { split; intros (w & R & Hw).
        - destruct R as [i|i pos' d1' d2' w Li Ag Bs Ss R].
          + exfalso. tauto.
          + apply (stopped_agreeing key text pats) in St. assert (pos' = pos) by (eapply agreeing_fun; eauto). subst pos'. fold m in Bs. rewrite (behind_fun _ _ _ _ Bs B1), (seen_fun _ _ _ _ _ Ss B2) in R. eauto.
        - exists w. split; auto. econstructor; eauto; [fold m; lia|now apply (stopped_agreeing key text pats)]. }
      rewrite Eq, <- IH. destruct (sunday_loop fuel m pats td1 (lget td2) text (i + Nat.max d1 d2)); cbn [bind]; split; auto; discriminate.
Qed.
End Windows.

Theorem ms_windows : forall text key order, bytes_below 256 text -> (N.of_nat (length text) < 2 ^ 64)%N -> (N.of_nat (length key) < 2 ^ 64)%N -> scan_order key order ->
  (match_ms text key = UB \/ match_ms text key = Ok (occurrences key text)) /\
  (match_ms text key = UB <-> ~ bytes_below 128 key \/ length text < length key \/ exists w, ms_reaches key text order 0 w /\ w + length key < length text /\ nth (w + length key) text 0%N = 255%N).
Proof.
  intros text key order Ht Hn Hn' O. destruct (ms_exact text key Ht Hn Hn') as (A & _ & C & D). split; auto. destruct (bytes_dec 128 key) as [Hk|(j & Hj & B)].
  - destruct (Nat.lt_ge_cases (length text) (length key)) as [Hs|Hm]; [split; [auto|intros _; now apply D]|].
    destruct (make_order key) as (pats & E & Hp & O'). destruct (order_exists key) as (o0 & _ & U). assert (Eo : order = map fst pats) by (rewrite (U _ O), (U _ O'); reflexivity). rewrite Eo.
    unfold match_ms. rewrite E. cbn [bind]. destruct (qs_make_ok key Hk) as (td1 & E1 & L1 & T1). rewrite E1. cbn [bind]. destruct (ms_table key text pats Hp Hk Hn) as (td2 & E2 & L2 & T2 & S2). rewrite E2. cbn [bind].
    rewrite (ms_loop key text pats Hp Hk Ht Hn Hm td1 td2 L1 T1 L2 T2 S2) by lia. split; [auto|]. intros [X|[X|X]]; [contradiction|lia|auto].
  - assert (NB : ~ bytes_below 128 key) by (intros X; pose proof (bytes_below_nth _ _ j X Hj); lia). split; [auto|intros _; now apply C].
Qed.
