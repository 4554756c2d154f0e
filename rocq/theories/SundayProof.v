(** Proofs about SundayQS and SundayMS. *)
From Coq Require Import List NArith ZArith Arith Bool Lia Permutation.
From Verif Require Import Base Spec4 PatternModel PatternProof KmpProof.
Import ListNotations.
Local Open Scope nat_scope.

(** ** the patterns are the key in some order *)
Lemma sort_insert_perm : forall less x l, Permutation (sort_insert less x l) (x :: l).
Proof. induction l as [|y l IH]; simpl; auto. destruct (less x y); auto. rewrite IH. apply perm_swap. Qed.
Lemma sort_pats_perm : forall less l, Permutation (sort_pats less l) l.
Proof. induction l as [|x l IH]; simpl; auto. unfold sort_pats in *. rewrite sort_insert_perm. now constructor. Qed.
Lemma last_same_ok : forall key c cnt, cnt <= length key -> exists j, last_same key c cnt = Ok j /\ j <= cnt.
Proof.
  induction cnt as [|j IH]; intros H; cbn [last_same]; [exists 0; auto|]. rewrite (lget_nth _ key j 0%N) by lia. cbn [bind]. destruct (_ =? _)%N; [exists (S j); auto|]. destruct IH as (x & E & L); [lia|]. exists x. split; [auto|lia].
Qed.
Lemma mapM_total : forall A B (f : A -> res B) l, (forall a, In a l -> exists b, f a = Ok b) -> exists bs, mapM f l = Ok bs.
Proof.
  induction l as [|a l IH]; intros H; [exists []; auto|]. cbn [mapM]. destruct (H a) as (b & E); [now left|]. rewrite E. cbn [bind]. destruct IH as (bs & Es); [intros; apply H; now right|]. rewrite Es. eexists. reflexivity.
Qed.
Definition pats_of (key : list N) (pats : list (nat * N)) : Prop :=
  length pats = length key /\ (forall q, q < length key -> fst (nth q pats (0, 0%N)) < length key /\ snd (nth q pats (0, 0%N)) = nth (fst (nth q pats (0, 0%N))) key 0%N) /\
  forall p, p < length key -> exists q, q < length key /\ fst (nth q pats (0, 0%N)) = p.
Lemma combine_nth' : forall (key : list N) s q, q < length key -> nth q (combine (seq s (length key)) key) (0, 0%N) = (s + q, nth q key 0%N).
Proof.
  induction key as [|c key IH]; intros s q Hq; simpl in *; [lia|]. destruct q as [|q]; [now rewrite Nat.add_0_r|]. rewrite IH by lia. f_equal. lia.
Qed.
Lemma sunday_make_ok : forall key, exists pats, sunday_make key = Ok pats /\ pats_of key pats.
Proof.
  intros key. unfold sunday_make, min_shifts.
  destruct (mapM_total _ _ (fun i => do c <- lget key i; do j1 <- last_same key c i; Ok (i + 1 - j1)) (seq 0 (length key))) as (ms & E).
  { intros i Hi. apply in_seq in Hi. rewrite (lget_nth _ key i 0%N) by lia. cbn [bind]. destruct (last_same_ok key (nth i key 0%N) i ltac:(lia)) as (j & Ej & _). rewrite Ej. cbn [bind]. eexists. reflexivity. }
  rewrite E. cbn [bind]. eexists. split; [reflexivity|]. set (cb := combine (seq 0 (length key)) key). pose proof (sort_pats_perm (pat_less ms) cb) as P. set (pats := sort_pats (pat_less ms) cb) in *.
  assert (Lc : length cb = length key) by (unfold cb; rewrite combine_length, seq_length; lia). assert (Lp : length pats = length key) by (rewrite (Permutation_length P); auto).
  split; auto. split.
  - intros q Hq. assert (I : In (nth q pats (0, 0%N)) cb) by (apply (Permutation_in _ P), nth_In; lia). destruct (In_nth _ _ (0, 0%N) I) as (p & Hp & Ep). unfold cb in Ep. rewrite combine_nth' in Ep by lia. rewrite <- Ep. simpl. split; [lia|auto].
  - intros p Hp. assert (I : In (p, nth p key 0%N) pats). { apply (Permutation_in _ (Permutation_sym P)). replace (p, nth p key 0%N) with (nth p cb (0, 0%N)); [apply nth_In; lia|]. unfold cb. now rewrite combine_nth'. }
    destruct (In_nth _ _ (0, 0%N) I) as (q & Hq & Eq). exists q. split; [lia|]. now rewrite Eq.
Qed.

Section Search.
Variable key text : list N.
Variable pats : list (nat * N).
Hypothesis Hp : pats_of key pats.
Hypothesis Hk : bytes_below 128 key.
Hypothesis Ht : bytes_below 255 text.
Hypothesis Hn : (N.of_nat (length text) < 2 ^ 64)%N.
Let m := length key.
Let off q := fst (nth q pats (0, 0%N)).
Lemma off_lt : forall q, q < m -> off q < m.
Proof. intros q Hq. destruct Hp as (_ & H & _). now apply H. Qed.
Lemma same_char_key : forall q c, q < m -> same_char (snd (nth q pats (0, 0%N))) c = (nth (off q) key 0 =? c)%N.
Proof.
  intros q c Hq. destruct Hp as (_ & H & _). destruct (H q Hq) as (H1 & H2). rewrite H2. unfold same_char, off. destruct (N.eqb_spec (nth (fst (nth q pats (0, 0%N))) key 0%N) c) as [E|E]; auto. rewrite <- E. cbn [andb]. apply N.ltb_lt. now apply bytes_below_nth.
Qed.
(** the first pos patterns agree with the text at i, the next one does not *)
Definition stopped (i pos : nat) : Prop :=
  pos <= m /\ (forall q, q < pos -> nth (off q) key 0%N = nth (i + off q) text 0%N) /\ (pos < m -> nth (off pos) key 0%N <> nth (i + off pos) text 0%N).
Lemma sunday_pos_ok : forall i, i + m <= length text -> exists pos, sunday_pos pats text i 0 = Ok pos /\ stopped i pos.
Proof.
  intros i Hi. pose proof (proj1 Hp) as Lp.
  assert (G : forall k q, q + k = m -> (forall q', q' < q -> nth (off q') key 0%N = nth (i + off q') text 0%N) -> exists pos, sunday_pos (skipn q pats) text i q = Ok pos /\ stopped i pos).
  { induction k as [|k IH]; intros q Hq H.
    - rewrite skipn_all2 by (unfold m in *; lia). exists q. split; auto. split; [lia|]. split; auto. lia.
    - assert (Es : skipn q pats = nth q pats (0, 0%N) :: skipn (S q) pats).
      { assert (q < length pats) by (unfold m in *; lia). clear - H0. revert q H0. induction pats as [|p l IH]; intros [|q] Hq; simpl in *; try lia; auto. apply IH. lia. }
      rewrite Es. cbn [sunday_pos]. fold (off q). pose proof (off_lt q ltac:(lia)). rewrite (lget_nth _ text _ 0%N) by lia. cbn [bind]. rewrite same_char_key by lia.
      destruct (N.eqb_spec (nth (off q) key 0%N) (nth (i + off q) text 0%N)) as [E|E].
      + apply IH; [lia|]. intros q' Hq'. destruct (Nat.eq_dec q' q) as [->|]; auto. apply H. lia.
      + exists q. split; auto. split; [lia|]. split; auto. }
  apply (G m 0); [lia|]. intros; lia.
Qed.
Lemma stopped_occ : forall i pos, i + m <= length text -> stopped i pos -> occurs_at key text i = (pos =? m).
Proof.
  intros i pos Hi (L & A & D). apply eq_true_iff_eq. rewrite occurs_spec by lia. rewrite Nat.eqb_eq. fold m. split.
  - intros (_ & H). destruct (Nat.eq_dec pos m); auto. exfalso. apply D; [lia|]. apply H. apply off_lt. lia.
  - intros ->. split; auto. intros j Hj. destruct Hp as (_ & _ & H). destruct (H j Hj) as (q & Hq & E). fold (off q) in E. rewrite <- E. now apply A.
Qed.
Definition sound_shift (shift : nat -> res nat) : Prop :=
  forall i pos, i + m <= length text -> stopped i pos -> exists d, shift pos = Ok d /\ forall x, i < x < i + d -> x <= length text -> occurs_at key text x = false.
Lemma sunday_loop_ok : forall td1 shift, m <= length text -> length td1 = 255 ->
  (forall c, N.to_nat c < 255 -> (exists j, last_at key m c j /\ nth (N.to_nat c) td1 0 = m - j) \/ ((forall j, j < m -> nth j key 0%N <> c) /\ nth (N.to_nat c) td1 0 = m + 1)) ->
  sound_shift shift -> forall fuel i, S (length text) - i <= fuel -> sunday_loop fuel m pats td1 shift text i = Ok (occ_from key text i).
Proof.
  intros td1 shift Hm Lt T Sh. assert (Ew : wsub (N.of_nat (length text)) (N.of_nat m) = N.of_nat (length text - m)).
  { unfold wsub. replace (N.of_nat (length text) + 2 ^ 64 - N.of_nat m)%N with (N.of_nat (length text - m) + 1 * 2 ^ 64)%N by lia. rewrite N.mod_add by discriminate. apply N.mod_small. lia. }
  induction fuel as [|fuel IH]; intros i Hf; cbn [sunday_loop]; rewrite Ew; destruct (N.leb_spec (N.of_nat i) (N.of_nat (length text - m))); try (rewrite occ_past; [reflexivity|fold m; lia]); try lia.
  assert (Hi : i + m <= length text) by lia. destruct (sunday_pos_ok i Hi) as (pos & E & St). rewrite E. cbn [bind]. rewrite <- (stopped_occ i pos Hi St).
  destruct (Nat.eqb_spec (i + m) (length text)) as [El|Nl].
  - cbn [bind]. f_equal. rewrite (occ_step key text i 1) by lia. rewrite (occ_past key text (i + 1)) by (fold m; lia). reflexivity.
  - rewrite (lget_nth _ text (i + m) 0%N) by lia. cbn [bind]. pose proof (bytes_below_nth _ _ (i + m) Ht ltac:(lia)) as Bc. set (c := nth (i + m) text 0%N) in *. rewrite (lget_nth _ td1 _ 0) by lia. cbn [bind].
    destruct (Sh i pos Hi St) as (d2 & E2 & H2). rewrite E2. cbn [bind]. set (d1 := nth (N.to_nat c) td1 0) in *.
    assert (L1 : 1 <= d1 <= m + 1). { unfold d1. destruct (T c ltac:(lia)) as [(j & (J1 & _) & ->)|(_ & ->)]; lia. }
    rewrite IH by lia. cbn [bind]. f_equal. rewrite (occ_step key text i (Nat.max d1 d2)); auto; try lia.
    intros x Hx Hxl. destruct (Nat.lt_ge_cases x (i + d2)); [apply H2; lia|]. destruct (occurs_at key text x) eqn:Ex; auto. exfalso. apply occurs_spec in Ex; auto. destruct Ex as (E3 & E4). fold m in E3, E4.
    specialize (E4 (i + m - x) ltac:(lia)). replace (x + (i + m - x)) with (i + m) in E4 by lia. fold c in E4.
    destruct (T c ltac:(lia)) as [(j & (J1 & J2 & J3) & Ej)|(J & Ej)]; fold d1 in Ej.
    + apply (J3 (i + m - x)); [lia|auto].
    + apply (J (i + m - x)); [lia|auto].
Qed.

(** ** delta2 of SundayMS *)
Definition fits (s pos : nat) : Prop := forall q, q < pos -> s <= off q -> nth (off q - s) key 0%N = nth (off q) key 0%N.
Lemma shift_fits_ok : forall s cnt, cnt <= m -> exists b, shift_fits key pats s cnt = Ok b /\ (b = true <-> fits s cnt).
Proof.
  intros s. pose proof (proj1 Hp) as Lp. induction cnt as [|q IH]; intros Hc; cbn [shift_fits].
  - exists true. split; auto. split; auto. intros _ q Hq. lia.
  - rewrite (lget_nth _ pats q (0, 0%N)) by (unfold m in *; lia). cbn [bind]. fold (off q). destruct (IH ltac:(lia)) as (b & E & Hb). destruct (Nat.ltb_spec (off q) s).
    + exists b. split; auto. rewrite Hb. split; intros F q' Hq' L; [|apply F; lia]. destruct (Nat.eq_dec q' q) as [->|]; [lia|apply F; lia].
    + pose proof (off_lt q ltac:(lia)). rewrite (lget_nth _ key _ 0%N) by (fold m; lia). cbn [bind]. rewrite same_char_key by lia. destruct (N.eqb_spec (nth (off q) key 0%N) (nth (off q - s) key 0%N)) as [Eq|Nq].
      * exists b. split; auto. rewrite Hb. split; intros F q' Hq' L; [|apply F; lia]. destruct (Nat.eq_dec q' q) as [->|]; [auto|apply F; lia].
      * exists false. split; auto. split; [discriminate|]. intros F. exfalso. apply Nq. symmetry. apply F; lia.
Qed.
Lemma match_shift_ok : forall pos, pos <= m -> forall fuel l, m - l <= fuel -> exists l', match_shift fuel key pats pos l = Ok l' /\ l <= l' /\ forall s, l <= s < l' -> ~ fits s pos.
Proof.
  intros pos Hpos. induction fuel as [|fuel IH]; intros l Hl; cbn [match_shift]; fold m; destruct (Nat.ltb_spec l m); try lia; try (exists l; split; auto; split; auto; intros; lia).
  destruct (shift_fits_ok l pos Hpos) as (b & E & Hb). rewrite E. cbn [bind]. destruct b; [exists l; split; auto; split; auto; intros; lia|].
  destruct (IH (S l) ltac:(lia)) as (l' & E' & L & F). exists l'. split; auto. split; [lia|]. intros s Hs C. destruct (Nat.eq_dec s l) as [->|]; [|apply (F s); [lia|auto]]. apply Hb in C. discriminate.
Qed.
(** shift s can be skipped when pattern pos is the first that differs *)
Definition skippable (s pos : nat) : Prop := ~ fits s pos \/ (pos < m /\ s <= off pos /\ nth (off pos - s) key 0%N = nth (off pos) key 0%N).
Lemma improve_ok : forall pos, pos < m -> forall fuel l, m - l <= fuel -> exists l', improve_shift fuel key pats pos l = Ok l' /\ l <= l' /\ forall s, l <= s < l' -> skippable s pos.
Proof.
  intros pos Hpos. pose proof (proj1 Hp) as Lp. induction fuel as [|fuel IH]; intros l Hl; cbn [improve_shift]; fold m; destruct (Nat.ltb_spec l m); try lia; try (exists l; split; auto; split; auto; intros; lia).
  rewrite (lget_nth _ pats pos (0, 0%N)) by (unfold m in *; lia). cbn [bind]. fold (off pos). destruct (Nat.ltb_spec (off pos) l); [exists l; split; auto; split; auto; intros; lia|].
  pose proof (off_lt pos ltac:(lia)). rewrite (lget_nth _ key _ 0%N) by (fold m; lia). cbn [bind]. rewrite same_char_key by lia.
  destruct (N.eqb_spec (nth (off pos) key 0%N) (nth (off pos - l) key 0%N)) as [Eq|Nq]; cbn [negb]; [|exists l; split; auto; split; auto; intros; lia].
  destruct (match_shift_ok pos ltac:(lia) (S m) (S l) ltac:(lia)) as (l1 & E1 & L1 & F1). rewrite E1. cbn [bind]. destruct (IH l1 ltac:(lia)) as (l' & E' & L' & F'). exists l'. split; auto. split; [lia|].
  intros s Hs. destruct (Nat.eq_dec s l) as [->|]; [right; auto|]. destruct (Nat.lt_ge_cases s l1); [left; apply F1; lia|apply F'; lia].
Qed.
Definition td2_ok (P : nat -> nat -> Prop) (td2 : list nat) (k : nat) : Prop := forall pos, pos < k -> forall s, 1 <= s < nth pos td2 0 -> P s pos.
Lemma ms_make_ok : exists td2, ms_make key pats = Ok td2 /\ length td2 = m + 1 /\ td2_ok skippable td2 (m + 1).
Proof.
  unfold ms_make. fold m. pose proof (proj1 Hp) as Lp. fold m in Lp. rewrite lset_Ok by (rewrite repeat_length; lia). cbn [bind].
  assert (G1 : forall k, k <= m -> exists td2, foldM (fun td2 pos => do l <- lget td2 (pos - 1); do l <- match_shift (S m) key pats pos l; lset td2 pos l) (seq 1 k) (upd (repeat 0 (m + 1)) 0 1) = Ok td2 /\ length td2 = m + 1 /\ td2_ok (fun s pos => ~ fits s pos) td2 (S k)).
  { induction k as [|k IH]; intros Hk'.
    - eexists. split; [reflexivity|]. rewrite upd_length, repeat_length. split; auto. intros pos Hpos s Hs. assert (pos = 0) by lia. subst. rewrite nth_upd in Hs. rewrite repeat_length, (proj2 (Nat.ltb_lt _ _)) in Hs by lia. cbn in Hs. lia.
    - destruct (IH ltac:(lia)) as (td2 & E & L & F). rewrite seq_S, foldM_app, E. cbn [bind foldM plus]. rewrite Nat.sub_succ, Nat.sub_0_r. rewrite (lget_nth _ td2 k 0) by lia. cbn [bind].
      destruct (match_shift_ok (S k) ltac:(lia) (S m) (nth k td2 0) ltac:(lia)) as (l' & E' & L' & F'). rewrite E'. cbn [bind]. rewrite lset_Ok by lia. cbn [bind]. eexists. split; [reflexivity|]. rewrite upd_length. split; auto.
      intros pos Hpos s Hs. rewrite nth_upd in Hs. destruct (Nat.eqb_spec pos (S k)) as [->|].
      + rewrite (proj2 (Nat.ltb_lt _ _)) in Hs by lia. cbn [andb] in Hs. destruct (Nat.lt_ge_cases s (nth k td2 0)); [|apply F'; lia]. intros C. apply (F k ltac:(lia) s ltac:(lia)). intros q Hq. apply C. lia.
      + cbn [andb] in Hs. apply F; lia. }
  destruct (G1 m (le_n _)) as (td2 & E & L & F). rewrite E. cbn [bind]. clear E G1. rewrite Lp.
  assert (G2 : forall k, k <= m -> exists td2', foldM (fun td2 pos => do l <- lget td2 pos; do l <- improve_shift (S m) key pats pos l; lset td2 pos l) (seq 0 k) td2 = Ok td2' /\ length td2' = m + 1 /\ td2_ok skippable td2' (m + 1) /\ forall j, k <= j -> nth j td2' 0 = nth j td2 0).
  { induction k as [|k IH]; intros Hk'.
    - exists td2. split; auto. split; auto. split; auto. intros pos Hpos s Hs. left. apply (F pos); [lia|auto].
    - destruct (IH ltac:(lia)) as (t & E & L1 & F1 & U). rewrite seq_S, foldM_app, E. cbn [bind foldM plus]. rewrite (lget_nth _ t k 0) by lia. cbn [bind].
      destruct (improve_ok k ltac:(lia) (S m) (nth k t 0) ltac:(lia)) as (l' & E' & L' & F'). rewrite E'. cbn [bind]. rewrite lset_Ok by lia. cbn [bind]. eexists. split; [reflexivity|]. rewrite upd_length. split; auto. split.
      + intros pos Hpos s Hs. rewrite nth_upd in Hs. destruct (Nat.eqb_spec pos k) as [->|].
        * rewrite (proj2 (Nat.ltb_lt _ _)) in Hs by lia. cbn [andb] in Hs. destruct (Nat.lt_ge_cases s (nth k t 0)); [apply F1; lia|apply F'; lia].
        * cbn [andb] in Hs. apply F1; lia.
      + intros j Hj. rewrite nth_upd. destruct (Nat.eqb_spec j k); [lia|]. apply U. lia. }
  destruct (G2 m (le_n _)) as (t & E & L1 & F1 & _). rewrite E. exists t. auto.
Qed.
Lemma ms_sound : forall td2, length td2 = m + 1 -> td2_ok skippable td2 (m + 1) -> sound_shift (lget td2).
Proof.
  intros td2 L F i pos Hi (Lp & A & D). exists (nth pos td2 0). split; [apply lget_nth; lia|]. intros x Hx Hxl. destruct (occurs_at key text x) eqn:Ex; auto. exfalso. apply occurs_spec in Ex; auto. destruct Ex as (E1 & E2). fold m in E1, E2.
  assert (At : forall q, q < m -> x - i <= off q -> nth (off q - (x - i)) key 0%N = nth (i + off q) text 0%N).
  { intros q Hq Lq. pose proof (off_lt q Hq). rewrite E2 by lia. f_equal. lia. }
  destruct (F pos ltac:(lia) (x - i) ltac:(lia)) as [Nf|(P1 & P2 & P3)].
  - apply Nf. intros q Hq Lq. rewrite At by lia. symmetry. now apply A.
  - apply D; auto. rewrite <- P3. now apply At.
Qed.
End Search.

Lemma qs_make_ok : forall key, bytes_below 128 key -> exists td1, qs_make key = Ok td1 /\ length td1 = 255 /\
  forall c, N.to_nat c < 255 -> (exists j, last_at key (length key) c j /\ nth (N.to_nat c) td1 0 = length key - j) \/ ((forall j, j < length key -> nth j key 0%N <> c) /\ nth (N.to_nat c) td1 0 = length key + 1).
Proof.
  intros key Hk. unfold qs_make. apply (table_ok key (fun i => length key - i) (length key + 1) 255); auto; try lia. intros j Hj. left. now apply bytes_below_nth.
Qed.
Definition sunday_domain (text key : list N) : Prop := bytes_below 128 key /\ bytes_below 255 text /\ (N.of_nat (length text) < 2 ^ 64)%N /\ length key <= length text.
Theorem qs_correct : forall text key, sunday_domain text key -> match_qs text key = Ok (occurrences key text).
Proof.
  intros text key (Hk & Ht & Hn & Hm). unfold match_qs. destruct (sunday_make_ok key) as (pats & E & Hp). rewrite E. cbn [bind]. destruct (qs_make_ok key Hk) as (td1 & E1 & L1 & T1). rewrite E1. cbn [bind].
  rewrite <- occ_all. apply sunday_loop_ok; auto. intros i pos _ _. exists 0. split; auto. intros; lia.
Qed.
Theorem ms_correct : forall text key, sunday_domain text key -> match_ms text key = Ok (occurrences key text).
Proof.
  intros text key (Hk & Ht & Hn & Hm). unfold match_ms. destruct (sunday_make_ok key) as (pats & E & Hp). rewrite E. cbn [bind]. destruct (qs_make_ok key Hk) as (td1 & E1 & L1 & T1). rewrite E1. cbn [bind].
  destruct (ms_make_ok key text pats Hp Hk Hn) as (td2 & E2 & L2 & T2). rewrite E2. cbn [bind]. rewrite <- occ_all. apply sunday_loop_ok; auto. apply ms_sound; auto.
Qed.

(** a text shorter than the key is read out of bounds *)
Lemma short_ub : forall fuel m pats td1 shift text, length text < m -> (N.of_nat m < 2 ^ 64)%N -> sunday_pos pats text 0 0 <> Fuel -> sunday_pos pats text 0 0 <> Throw -> 1 <= fuel -> sunday_loop fuel m pats td1 shift text 0 = UB.
Proof.
  intros [|fuel] m pats td1 shift text H Hm F1 F2 Hf; [lia|]. cbn [sunday_loop]. change (N.of_nat 0) with 0%N. rewrite (proj2 (N.leb_le 0 _)) by apply N.le_0_l. destruct (sunday_pos pats text 0 0) as [pos| | |]; try congruence; auto. cbn [bind].
  rewrite (proj2 (Nat.eqb_neq _ _)) by lia. assert (E : lget text (0 + m) = UB) by (apply lget_UB; lia). rewrite E. reflexivity.
Qed.
Lemma sunday_pos_total : forall pats text i pos, sunday_pos pats text i pos <> Fuel /\ sunday_pos pats text i pos <> Throw.
Proof.
  induction pats as [|p pats IH]; intros text i pos; cbn [sunday_pos]; [split; discriminate|]. unfold lget. destruct (nth_error text (i + fst p)); cbn [bind]; [|split; discriminate]. destruct (same_char _ _); [apply IH|split; discriminate].
Qed.
Theorem qs_short : forall text key, bytes_below 128 key -> (N.of_nat (length key) < 2 ^ 64)%N -> length text < length key -> match_qs text key = UB.
Proof.
  intros text key Hk Hm H. unfold match_qs. destruct (sunday_make_ok key) as (pats & E & Hp). rewrite E. cbn [bind]. destruct (qs_make_ok key Hk) as (td1 & E1 & L1 & T1). rewrite E1. cbn [bind].
  apply short_ub; auto; try apply sunday_pos_total. lia.
Qed.
Theorem ms_short : forall text key, bytes_below 128 key -> (N.of_nat (length key) < 2 ^ 64)%N -> length text < length key -> match_ms text key = UB.
Proof.
  intros text key Hk Hm H. unfold match_ms. destruct (sunday_make_ok key) as (pats & E & Hp). rewrite E. cbn [bind]. destruct (qs_make_ok key Hk) as (td1 & E1 & L1 & T1). rewrite E1. cbn [bind].
  destruct (ms_make_ok key text pats Hp Hk ltac:(lia)) as (td2 & E2 & L2 & T2). rewrite E2. cbn [bind]. apply short_ub; auto; try apply sunday_pos_total. lia.
Qed.

(** all matchers give the same list on text without zero bytes or bytes from 128 on *)
Theorem matchers_agree : forall text key, key <> [] -> length key <= length text -> (N.of_nat (length text) < 2 ^ 64)%N -> Forall (fun c => (0 < c < 128)%N) text -> bytes_below 128 key ->
  exists r, match_simple text key = Ok r /\ match_kmp [0%N] text key = Ok r /\ match_bm text key = Ok r /\ match_qs text key = Ok r /\ match_ms text key = Ok r.
Proof.
  intros text key Nk Hm Hn Ht Hk. exists (occurrences key text). rewrite Forall_forall in Ht.
  assert (D : sunday_domain text key). { split; auto. split; auto. apply Forall_forall. intros c Hc. apply Ht in Hc. lia. }
  split; [apply simple_correct|]. split; [apply kmp_terminated; auto; intros C; apply Ht in C; lia|]. split; [|split; [now apply qs_correct|now apply ms_correct]].
  apply bm_correct; auto; apply Forall_forall; intros c Hc; [apply Ht in Hc; lia|].
  unfold bytes_below in Hk. rewrite Forall_forall in Hk. apply Hk. rewrite removelast_firstn_len in Hc. rewrite <- (firstn_skipn (pred (length key)) key). apply in_or_app. now left.
Qed.
