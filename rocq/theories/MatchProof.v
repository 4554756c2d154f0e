(** What the matchers of PatternMatching.hpp do with arbitrary bytes. *)
From Coq Require Import List NArith ZArith Arith Bool Lia.
From Verif Require Import Base Spec4 PatternModel PatternProof KmpProof SundayProof TurboProof MatchSpec.
Import ListNotations.
Local Open Scope nat_scope.

Lemma bytes_below_Forall : forall b s, (forall j, j < length s -> (nth j s 0 < b)%N) -> bytes_below b s.
Proof. intros b s H. unfold bytes_below. apply Forall_forall. intros c Hc. destruct (In_nth s c 0%N Hc) as (j & Hj & <-). auto. Qed.
Lemma filter_nil : forall (p : nat -> bool) l, (forall x, In x l -> p x = false) -> filter p l = [].
Proof. induction l as [|a l IH]; intros H; auto. cbn [filter]. rewrite H by now left. apply IH. intros; apply H; now right. Qed.
Lemma bytes_dec : forall b s, bytes_below b s \/ exists j, j < length s /\ (b <= nth j s 0)%N.
Proof.
  intros b. induction s as [|c s IH]; [left; constructor|]. destruct (N.lt_ge_cases c b) as [L|L].
  - destruct IH as [H|(j & Hj & B)]; [left; now constructor|]. right. exists (S j). simpl. split; [lia|auto].
  - right. exists 0. simpl. split; [lia|auto].
Qed.
(** a table of 255 entries filled through a key with a negative character *)
Lemma table_bad : forall key (f : nat -> nat) k s td, length td = 255 -> s + k <= length key -> (exists j, s <= j < s + k /\ (128 <= nth j key 0)%N) ->
  foldM (fun td i => do c <- lget key i; do x <- char_index c; lset td x (f i)) (seq s k) td = UB.
Proof.
  intros key f. induction k as [|k IH]; intros s td Lt Hs (j & Hj & B); [lia|]. cbn [seq foldM]. rewrite (lget_nth _ key s 0%N) by lia. cbn [bind]. unfold char_index at 1.
  destruct (N.ltb_spec (nth s key 0%N) 128); cbn [bind]; auto. rewrite lset_Ok by (rewrite Lt; lia). cbn [bind]. apply IH; [now rewrite upd_length|lia|]. exists j. split; auto. destruct (Nat.eq_dec j s) as [->|]; lia.
Qed.

(** ** Bm *)
Section Bm.
Variable key text : list N.
Variable skip : list nat.
Let m := length key.
Hypothesis Hk : 1 <= m.
Hypothesis Ls : length skip = 255.
Hypothesis Ts : forall c, N.to_nat c < 255 -> (exists j, last_at key (m - 1) c j /\ nth (N.to_nat c) skip 0 = m - j - 1) \/ ((forall j, j < m - 1 -> nth j key 0%N <> c) /\ nth (N.to_nat c) skip 0 = m).
Lemma bm_step : forall i w, i < length text -> (nth i text 0 < 128)%N -> bm_reaches key text (i + nth (N.to_nat (nth i text 0%N)) skip 0) w -> bm_reaches key text i w.
Proof.
  intros i w Hi B R. destruct (Ts (nth i text 0%N) ltac:(lia)) as [(j & J & Ej)|(J & Ej)]; rewrite Ej in R.
  - apply BMSlide with j; auto. fold m. now replace (m - 1 - j) with (m - j - 1) by lia.
  - apply BMJump; auto.
Qed.
Lemma bm_step_inv : forall i w, (nth i text 0 < 128)%N -> bm_reaches key text i w -> w = i \/ bm_reaches key text (i + nth (N.to_nat (nth i text 0%N)) skip 0) w.
Proof.
  intros i w B R. destruct R as [i|i j w Hi (J1 & J2 & J3) R|i w Hi J R]; [now left| |]; right; destruct (Ts (nth i text 0%N) ltac:(lia)) as [(j' & (K1 & K2 & K3) & Ej)|(K1 & Ej)]; rewrite Ej.
  - assert (j' = j). { destruct (Nat.lt_trichotomy j j') as [C|[C|C]]; auto; exfalso; [apply (J3 j'); auto|apply (K3 j); auto]. } subst j'. replace (m - j - 1) with (m - 1 - j) by lia. exact R.
  - exfalso. apply (K1 j); auto.
  - exfalso. apply (J j'); auto.
  - exact R.
Qed.
Lemma bm_loop_fine : forall fuel i, m - 1 <= i -> S (length text) - i <= fuel -> (forall w, bm_reaches key text i w -> w < length text -> (nth w text 0 < 128)%N) ->
  bm_loop fuel key text skip i = Ok (occ_from key text (i + 1 - m)).
Proof.
  induction fuel as [|fuel IH]; intros i Hi Hf Hr; cbn [bm_loop]; destruct (Nat.leb_spec (length text) i); try (rewrite occ_past; [reflexivity|fold m; lia]); try lia.
  fold m. destruct (bm_back_ok key text m (S i) (le_n _) ltac:(lia) ltac:(lia)) as (b & Eb & Hb'). rewrite Eb. cbn [bind]. rewrite (lget_nth _ text i 0%N) by lia. cbn [bind]. unfold char_index.
  pose proof (Hr i (BMHere _ _ i) ltac:(lia)) as Bc. rewrite (proj2 (N.ltb_lt _ _)) by auto. cbn [bind]. rewrite (lget_nth _ skip _ 0) by (rewrite Ls; lia). cbn [bind].
  assert (Hr' : forall w, bm_reaches key text (i + nth (N.to_nat (nth i text 0%N)) skip 0) w -> w < length text -> (nth w text 0 < 128)%N) by (intros w R; apply Hr; apply bm_step; auto).
  set (c := nth i text 0%N) in *. set (s := nth (N.to_nat c) skip 0) in *.
  assert (S1 : 1 <= s <= m). { unfold s. destruct (Ts c ltac:(lia)) as [(j & (J1 & _) & ->)|(_ & ->)]; lia. }
  rewrite IH by (auto; lia). cbn [bind]. f_equal. rewrite (occ_step key text (i + 1 - m) s); [|lia|lia|].
  - replace (i + 1 - m + s) with (i + s + 1 - m) by lia.
    assert (E : occurs_at key text (i + 1 - m) = b). { apply eq_true_iff_eq. rewrite Hb'. rewrite occurs_spec by lia. replace (S i - m) with (i + 1 - m) by lia. fold m. split; [intros (_ & H'); auto|]. intros H'. split; [lia|auto]. }
    rewrite E. destruct b; auto.
  - intros x Hx Hxl. destruct (occurs_at key text x) eqn:E; auto. exfalso. apply occurs_spec in E; auto. destruct E as (E1 & E2). fold m in E1, E2.
    specialize (E2 (i - x) ltac:(lia)). replace (x + (i - x)) with i in E2 by lia. fold c in E2. unfold s in Hx.
    destruct (Ts c ltac:(lia)) as [(j & (J1 & J2 & J3) & Ej)|(J & Ej)]; rewrite Ej in Hx.
    + apply (J3 (i - x)); [lia|auto].
    + apply (J (i - x)); [lia|auto].
Qed.
Lemma bm_loop_bad : forall fuel i w, m - 1 <= i -> S (length text) - i <= fuel -> bm_reaches key text i w -> w < length text -> (128 <= nth w text 0)%N -> i <= w -> bm_loop fuel key text skip i = UB.
Proof.
  induction fuel as [|fuel IH]; intros i w Hi Hf Hr Hw Bw Liw; cbn [bm_loop]; destruct (Nat.leb_spec (length text) i); try lia.
  fold m. destruct (bm_back_ok key text m (S i) (le_n _) ltac:(lia) ltac:(lia)) as (b & Eb & Hb'). rewrite Eb. cbn [bind]. rewrite (lget_nth _ text i 0%N) by lia. cbn [bind]. unfold char_index.
  destruct (N.ltb_spec (nth i text 0%N) 128) as [Bc|Bc]; cbn [bind]; auto. rewrite (lget_nth _ skip _ 0) by (rewrite Ls; lia). cbn [bind].
  destruct (bm_step_inv i w Bc Hr) as [->|R]; [lia|].
  set (c := nth i text 0%N) in *. set (s := nth (N.to_nat c) skip 0) in *.
  assert (S1 : 1 <= s <= m). { unfold s. destruct (Ts c ltac:(lia)) as [(j & (J1 & _) & ->)|(_ & ->)]; lia. }
  assert (Up : i + s <= w). { clear - R Hk. induction R as [i'|i' j w' Hi' (J1 & _) R IH|i' w' Hi' J R IH]; unfold m in *; lia. }
  rewrite (IH (i + s) w) by (auto; lia). reflexivity.
Qed.
End Bm.
Lemma bm_reaches_le : forall key text i w, bm_reaches key text i w -> i <= w.
Proof. intros key text i w R. induction R as [i'|i' j w' Hi' (J1 & _) R IH|i' w' Hi' J R IH]; lia. Qed.
Theorem bm_exact : forall text key, key <> [] ->
  (bytes_below 128 (removelast key) -> (forall w, bm_reaches key text (length key - 1) w -> w < length text -> (nth w text 0 < 128)%N) -> match_bm text key = Ok (occurrences key text)) /\
  (~ bytes_below 128 (removelast key) -> match_bm text key = UB) /\
  (forall w, bm_reaches key text (length key - 1) w -> w < length text -> (128 <= nth w text 0)%N -> match_bm text key = UB).
Proof.
  intros text key Nk. unfold match_bm, bm_make. assert (L1 : 1 <= length key) by (destruct key; [congruence|simpl; lia]). rewrite (proj2 (Nat.eqb_neq _ _)) by lia.
  pose (key1 := removelast key). assert (Ll : length key1 = length key - 1) by (unfold key1; rewrite removelast_firstn_len, firstn_length; lia).
  assert (En : forall j, j < length key - 1 -> nth j key1 0%N = nth j key 0%N) by (intros j Hj; unfold key1; rewrite removelast_firstn_len; apply nth_firstn'; lia).
  assert (Bad : ~ bytes_below 128 key1 -> foldM (fun skip i => do c <- lget key i; do x <- char_index c; lset skip x (length key - i - 1)) (seq 0 (length key - 1)) (repeat (length key) 255) = UB).
  { intros NB. apply (table_bad key (fun i => length key - i - 1)); [now rewrite repeat_length|lia|]. destruct (bytes_dec 128 key1) as [B|(j & Hj & B)]; [contradiction|]. exists j. split; [lia|]. rewrite <- En by lia. auto. }
  assert (Good : bytes_below 128 key1 -> exists tb, foldM (fun skip i => do c <- lget key i; do x <- char_index c; lset skip x (length key - i - 1)) (seq 0 (length key - 1)) (repeat (length key) 255) = Ok tb /\ length tb = 255 /\
    forall c, N.to_nat c < 255 -> (exists j, last_at key (length key - 1) c j /\ nth (N.to_nat c) tb 0 = length key - j - 1) \/ ((forall j, j < length key - 1 -> nth j key 0%N <> c) /\ nth (N.to_nat c) tb 0 = length key)).
  { intros Hk. destruct (table_ok key1 (fun i => length key - i - 1) (length key) 255 ltac:(lia)) with (k := length key - 1) as (tb & E & L & T); [intros j Hj; left; apply bytes_below_nth; auto|lia|]. exists tb.
    split; [|split; auto].
    - rewrite <- E. clear E. assert (G : forall k s, s + k <= length key - 1 -> forall acc, foldM (fun skip i => do c <- lget key i; do x <- char_index c; lset skip x (length key - i - 1)) (seq s k) acc = foldM (fun tb i => do c <- lget key1 i; do x <- char_index c; lset tb x (length key - i - 1)) (seq s k) acc).
      { induction k as [|k IHk]; intros s Hs acc; auto. cbn [seq foldM]. rewrite (lget_nth _ key s 0%N), (lget_nth _ key1 s 0%N) by lia. rewrite En by lia. cbn [bind].
        destruct (char_index (nth s key 0%N)) as [x| | |]; cbn [bind]; auto. destruct (lset acc x (length key - s - 1)); cbn [bind]; auto. apply IHk. lia. }
      apply G. lia.
    - intros c Hc. destruct (T c Hc) as [(j & (J1 & J2 & J3) & Ej)|(J & Ej)].
      + left. exists j. split; auto. split; auto. rewrite <- En by auto. split; auto. intros x Hx. rewrite <- En by lia. now apply J3.
      + right. split; auto. intros j Hj. rewrite <- En by auto. now apply J. }
  split; [|split].
  - intros Hk Hr. destruct (Good Hk) as (tb & E & L & T). rewrite E. cbn [bind]. rewrite <- occ_all. rewrite (bm_loop_fine key text tb L1 L T); auto; [do 2 f_equal; lia|lia].
  - intros NB. rewrite Bad by auto. reflexivity.
  - intros w Hr Hw Bw. destruct (bytes_dec 128 key1) as [B|(j & Hj & B)].
    + destruct (Good B) as (tb & E & L & T). rewrite E. cbn [bind]. apply (bm_loop_bad key text tb L1 L T) with w; auto; [lia|]. now apply (bm_reaches_le key text).
    + rewrite Bad; [reflexivity|]. intros C. pose proof (bytes_below_nth _ _ j C Hj). lia.
Qed.

(** ** SundayQS and SundayMS *)
Section Sunday.
Variable key text : list N.
Variable pats : list (nat * N).
Hypothesis Hp : pats_of key pats.
Hypothesis Hk : bytes_below 128 key.
Hypothesis Ht : bytes_below 256 text.
Hypothesis Hn : (N.of_nat (length text) < 2 ^ 64)%N.
Let m := length key.
Hypothesis Hm : m <= length text.
Variable td1 : list nat.
Hypothesis Lt : length td1 = 255.
Hypothesis T : forall c, N.to_nat c < 255 -> (exists j, last_at key m c j /\ nth (N.to_nat c) td1 0 = m - j) \/ ((forall j, j < m -> nth j key 0%N <> c) /\ nth (N.to_nat c) td1 0 = m + 1).
Let Ew : wsub (N.of_nat (length text)) (N.of_nat m) = N.of_nat (length text - m).
Proof. unfold wsub. replace (N.of_nat (length text) + 2 ^ 64 - N.of_nat m)%N with (N.of_nat (length text - m) + 1 * 2 ^ 64)%N by lia. rewrite N.mod_add by discriminate. apply N.mod_small. lia. Qed.
Lemma d1_bounds : forall c, N.to_nat c < 255 -> 1 <= nth (N.to_nat c) td1 0 <= m + 1.
Proof. intros c Hc. destruct (T c Hc) as [(j & (J1 & _) & ->)|(_ & ->)]; lia. Qed.
Lemma d1_skip : forall i c x, c = nth (i + m) text 0%N -> N.to_nat c < 255 -> i < x < i + nth (N.to_nat c) td1 0 -> x <= length text -> occurs_at key text x = false.
Proof.
  intros i c x -> Hc Hx Hxl. destruct (occurs_at key text x) eqn:Ex; auto. exfalso. pose proof (d1_bounds _ Hc) as DB. apply occurs_spec in Ex; auto. destruct Ex as (E3 & E4). fold m in E3, E4.
  specialize (E4 (i + m - x) ltac:(lia)). replace (x + (i + m - x)) with (i + m) in E4 by lia.
  destruct (T _ Hc) as [(j & (J1 & J2 & J3) & Ej)|(J & Ej)]; rewrite Ej in Hx.
  - apply (J3 (i + m - x)); [lia|auto].
  - apply (J (i + m - x)); [lia|auto].
Qed.
(** whatever is shifted, no occurrence is missed and none is invented *)
Lemma sunday_never_wrong : forall shift, sound_shift key text pats shift -> forall fuel i, S (length text) - i <= fuel ->
  sunday_loop fuel m pats td1 shift text i = UB \/ sunday_loop fuel m pats td1 shift text i = Ok (occ_from key text i).
Proof.
  intros shift Sh. induction fuel as [|fuel IH]; intros i Hf; cbn [sunday_loop]; rewrite Ew; destruct (N.leb_spec (N.of_nat i) (N.of_nat (length text - m))); try (right; rewrite occ_past; [reflexivity|fold m; lia]); try lia.
  assert (Hi : i + m <= length text) by lia. destruct (sunday_pos_ok key text pats Hp Hk Hn i Hi) as (pos & E & St). rewrite E. cbn [bind]. replace (pos =? m) with (occurs_at key text i) by exact (stopped_occ key text pats Hp Hn i pos Hi St).
  destruct (Nat.eqb_spec (i + m) (length text)) as [El|Nl].
  - right. cbn [bind]. f_equal. rewrite (occ_step key text i 1) by lia. rewrite (occ_past key text (i + 1)) by (fold m; lia). reflexivity.
  - rewrite (lget_nth _ text (i + m) 0%N) by lia. cbn [bind]. pose proof (bytes_below_nth _ _ (i + m) Ht ltac:(lia)) as Bc. destruct (N.eq_dec (nth (i + m) text 0%N) 255) as [E5|N5].
    + left. assert (X : lget td1 (N.to_nat (nth (i + m) text 0%N)) = UB) by (apply lget_UB; rewrite E5, Lt; lia). rewrite X. reflexivity.
    + rewrite (lget_nth _ td1 _ 0) by (rewrite Lt; lia). cbn [bind]. destruct (Sh i pos Hi St) as (d2 & E2 & H2). rewrite E2. cbn [bind]. pose proof (d1_bounds (nth (i + m) text 0%N) ltac:(lia)) as DB.
      destruct (IH (i + Nat.max (nth (N.to_nat (nth (i + m) text 0%N)) td1 0) d2) ltac:(lia)) as [F|F]; rewrite F; cbn [bind]; [now left|]. right. f_equal.
      rewrite (occ_step key text i (Nat.max (nth (N.to_nat (nth (i + m) text 0%N)) td1 0) d2)); auto; try lia.
      intros x Hx Hxl. destruct (Nat.lt_ge_cases x (i + d2)); [apply H2; lia|]. apply (d1_skip i (nth (i + m) text 0%N)); auto; lia.
Qed.

(** no byte 255 behind the first window *)
Lemma sunday_fine : forall shift, sound_shift key text pats shift -> (forall j, m <= j < length text -> nth j text 0%N <> 255%N) -> forall fuel i, S (length text) - i <= fuel ->
  sunday_loop fuel m pats td1 shift text i = Ok (occ_from key text i).
Proof.
  intros shift Sh Hb. induction fuel as [|fuel IH]; intros i Hf; cbn [sunday_loop]; rewrite Ew; destruct (N.leb_spec (N.of_nat i) (N.of_nat (length text - m))); try (rewrite occ_past; [reflexivity|fold m; lia]); try lia.
  assert (Hi : i + m <= length text) by lia. destruct (sunday_pos_ok key text pats Hp Hk Hn i Hi) as (pos & E & St). rewrite E. cbn [bind]. replace (pos =? m) with (occurs_at key text i) by exact (stopped_occ key text pats Hp Hn i pos Hi St).
  destruct (Nat.eqb_spec (i + m) (length text)) as [El|Nl].
  - cbn [bind]. f_equal. rewrite (occ_step key text i 1) by lia. rewrite (occ_past key text (i + 1)) by (fold m; lia). reflexivity.
  - rewrite (lget_nth _ text (i + m) 0%N) by lia. cbn [bind]. pose proof (bytes_below_nth _ _ (i + m) Ht ltac:(lia)) as Bc. pose proof (Hb (i + m) ltac:(lia)) as N5.
    rewrite (lget_nth _ td1 _ 0) by (rewrite Lt; lia). cbn [bind]. destruct (Sh i pos Hi St) as (d2 & E2 & H2). rewrite E2. cbn [bind]. pose proof (d1_bounds (nth (i + m) text 0%N) ltac:(lia)) as DB.
    rewrite IH by lia. cbn [bind]. f_equal.
    rewrite (occ_step key text i (Nat.max (nth (N.to_nat (nth (i + m) text 0%N)) td1 0) d2)); auto; try lia.
    intros x Hx Hxl. destruct (Nat.lt_ge_cases x (i + d2)); [apply H2; lia|]. apply (d1_skip i (nth (i + m) text 0%N)); auto; lia.
Qed.

Lemma qs_step : forall i w, i + m < length text -> (nth (i + m) text 0 < 255)%N -> qs_reaches key text (i + nth (N.to_nat (nth (i + m) text 0%N)) td1 0) w -> qs_reaches key text i w.
Proof.
  intros i w Hi B R. destruct (T (nth (i + m) text 0%N) ltac:(lia)) as [(j & J & Ej)|(J & Ej)]; rewrite Ej in R.
  - apply QSSlide with j; auto.
  - apply QSJump; auto.
Qed.
Lemma qs_step_inv : forall i w, (nth (i + m) text 0 < 255)%N -> qs_reaches key text i w -> w = i \/ qs_reaches key text (i + nth (N.to_nat (nth (i + m) text 0%N)) td1 0) w.
Proof.
  intros i w B R. destruct R as [i|i j w Hi (J1 & J2 & J3) R|i w Hi J R]; [now left| |]; right; destruct (T (nth (i + m) text 0%N) ltac:(lia)) as [(j' & (K1 & K2 & K3) & Ej)|(K1 & Ej)]; rewrite Ej.
  - assert (j' = j). { destruct (Nat.lt_trichotomy j j') as [C|[C|C]]; auto; exfalso; [apply (J3 j'); auto|apply (K3 j); auto]. } subst j'. exact R.
  - exfalso. apply (K1 j); auto.
  - exfalso. apply (J j'); auto.
  - exact R.
Qed.
Lemma qs_loop_fine : forall fuel i, S (length text) - i <= fuel -> (forall w, qs_reaches key text i w -> w + m < length text -> nth (w + m) text 0%N <> 255%N) ->
  sunday_loop fuel m pats td1 (fun _ => Ok 0) text i = Ok (occ_from key text i).
Proof.
  induction fuel as [|fuel IH]; intros i Hf Hr; cbn [sunday_loop]; rewrite Ew; destruct (N.leb_spec (N.of_nat i) (N.of_nat (length text - m))); try (rewrite occ_past; [reflexivity|fold m; lia]); try lia.
  assert (Hi : i + m <= length text) by lia. destruct (sunday_pos_ok key text pats Hp Hk Hn i Hi) as (pos & E & St). rewrite E. cbn [bind]. replace (pos =? m) with (occurs_at key text i) by exact (stopped_occ key text pats Hp Hn i pos Hi St).
  destruct (Nat.eqb_spec (i + m) (length text)) as [El|Nl].
  - cbn [bind]. f_equal. rewrite (occ_step key text i 1) by lia. rewrite (occ_past key text (i + 1)) by (fold m; lia). reflexivity.
  - rewrite (lget_nth _ text (i + m) 0%N) by lia. cbn [bind]. pose proof (bytes_below_nth _ _ (i + m) Ht ltac:(lia)) as Bc. pose proof (Hr i (QSHere _ _ i) ltac:(lia)) as N5.
    rewrite (lget_nth _ td1 _ 0) by (rewrite Lt; lia). cbn [bind]. pose proof (d1_bounds (nth (i + m) text 0%N) ltac:(lia)) as DB. rewrite Nat.max_0_r.
    rewrite IH; [|lia|intros w R; apply Hr; apply qs_step; auto; lia]. cbn [bind]. f_equal.
    rewrite (occ_step key text i (nth (N.to_nat (nth (i + m) text 0%N)) td1 0)); auto; try lia.
    intros x Hx Hxl. apply (d1_skip i (nth (i + m) text 0%N)); auto; lia.
Qed.
Lemma qs_reaches_le : forall i w, qs_reaches key text i w -> i <= w.
Proof. intros i w R. induction R as [i'|i' j w' Hi' (J1 & _) R IH|i' w' Hi' J R IH]; lia. Qed.
Lemma qs_loop_bad : forall fuel i w, S (length text) - i <= fuel -> qs_reaches key text i w -> w + m < length text -> nth (w + m) text 0%N = 255%N ->
  sunday_loop fuel m pats td1 (fun _ => Ok 0) text i = UB.
Proof.
  induction fuel as [|fuel IH]; intros i w Hf Hr Hw Bw; pose proof (qs_reaches_le i w Hr) as Le; cbn [sunday_loop]; rewrite Ew; destruct (N.leb_spec (N.of_nat i) (N.of_nat (length text - m))); try lia.
  assert (Hi : i + m <= length text) by lia. destruct (sunday_pos_ok key text pats Hp Hk Hn i Hi) as (pos & E & St). rewrite E. cbn [bind].
  rewrite (proj2 (Nat.eqb_neq _ _)) by lia. rewrite (lget_nth _ text (i + m) 0%N) by lia. cbn [bind]. pose proof (bytes_below_nth _ _ (i + m) Ht ltac:(lia)) as Bc. destruct (N.eq_dec (nth (i + m) text 0%N) 255) as [E5|N5].
  - assert (X : lget td1 (N.to_nat (nth (i + m) text 0%N)) = UB) by (apply lget_UB; rewrite E5, Lt; lia). rewrite X. reflexivity.
  - rewrite (lget_nth _ td1 _ 0) by (rewrite Lt; lia). cbn [bind]. rewrite Nat.max_0_r. destruct (qs_step_inv i w ltac:(lia) Hr) as [->|R]; [contradiction|]. pose proof (d1_bounds (nth (i + m) text 0%N) ltac:(lia)) as DB.
    rewrite (IH _ w) by (auto; lia). reflexivity.
Qed.
End Sunday.
Lemma qs_make_bad : forall key, ~ bytes_below 128 key -> qs_make key = UB.
Proof.
  intros key NB. unfold qs_make. apply (table_bad key (fun i => length key - i)); [now rewrite repeat_length|lia|]. destruct (bytes_dec 128 key) as [B|(j & Hj & B)]; [contradiction|]. exists j. split; [lia|auto].
Qed.
Theorem qs_exact : forall text key, bytes_below 256 text -> (N.of_nat (length text) < 2 ^ 64)%N -> (N.of_nat (length key) < 2 ^ 64)%N ->
  (bytes_below 128 key -> length key <= length text -> (forall w, qs_reaches key text 0 w -> w + length key < length text -> nth (w + length key) text 0%N <> 255%N) -> match_qs text key = Ok (occurrences key text)) /\
  (~ bytes_below 128 key -> match_qs text key = UB) /\ (length text < length key -> match_qs text key = UB) /\
  (forall w, qs_reaches key text 0 w -> w + length key < length text -> nth (w + length key) text 0%N = 255%N -> match_qs text key = UB).
Proof.
  intros text key Ht Hn Hn'. assert (Bad : ~ bytes_below 128 key -> match_qs text key = UB).
  { intros NB. unfold match_qs. destruct (sunday_make_ok key) as (pats & E & Hp). rewrite E. cbn [bind]. rewrite qs_make_bad by auto. reflexivity. }
  split; [|split; [|split]]; auto.
  - intros Hk Hm Hr. unfold match_qs. destruct (sunday_make_ok key) as (pats & E & Hp). rewrite E. cbn [bind]. destruct (qs_make_ok key Hk) as (td1 & E1 & L1 & T1). rewrite E1. cbn [bind]. rewrite <- occ_all. apply qs_loop_fine; auto; lia.
  - intros Hs. destruct (bytes_dec 128 key) as [B|(j & Hj & B)]; [now apply qs_short|]. apply Bad. intros C. pose proof (bytes_below_nth _ _ j C Hj). lia.
  - intros w Hr Hw Bw. destruct (bytes_dec 128 key) as [Hk|(j & Hj & B)]; [|apply Bad; intros C; pose proof (bytes_below_nth _ _ j C Hj); lia].
    unfold match_qs. destruct (sunday_make_ok key) as (pats & E & Hp). rewrite E. cbn [bind]. destruct (qs_make_ok key Hk) as (td1 & E1 & L1 & T1). rewrite E1. cbn [bind]. apply qs_loop_bad with w; auto; lia.
Qed.
Theorem ms_exact : forall text key, bytes_below 256 text -> (N.of_nat (length text) < 2 ^ 64)%N -> (N.of_nat (length key) < 2 ^ 64)%N ->
  (match_ms text key = UB \/ match_ms text key = Ok (occurrences key text)) /\
  (bytes_below 128 key -> length key <= length text -> (forall j, length key <= j < length text -> nth j text 0%N <> 255%N) -> match_ms text key = Ok (occurrences key text)) /\
  (~ bytes_below 128 key -> match_ms text key = UB) /\ (length text < length key -> match_ms text key = UB).
Proof.
  intros text key Ht Hn Hn'. assert (Bad : ~ bytes_below 128 key -> match_ms text key = UB).
  { intros NB. unfold match_ms. destruct (sunday_make_ok key) as (pats & E & Hp). rewrite E. cbn [bind]. rewrite qs_make_bad by auto. reflexivity. }
  assert (Short : length text < length key -> match_ms text key = UB).
  { intros Hs. destruct (bytes_dec 128 key) as [B|(j & Hj & B)]; [now apply ms_short|]. apply Bad. intros C. pose proof (bytes_below_nth _ _ j C Hj). lia. }
  split; [|split; [|split]]; auto.
  - destruct (bytes_dec 128 key) as [Hk|(j & Hj & B)]; [|left; apply Bad; intros C; pose proof (bytes_below_nth _ _ j C Hj); lia].
    destruct (Nat.lt_ge_cases (length text) (length key)) as [Hs|Hm]; [left; now apply Short|].
    unfold match_ms. destruct (sunday_make_ok key) as (pats & E & Hp). rewrite E. cbn [bind]. destruct (qs_make_ok key Hk) as (td1 & E1 & L1 & T1). rewrite E1. cbn [bind].
    destruct (ms_make_ok key text pats Hp Hk Hn) as (td2 & E2 & L2 & T2). rewrite E2. cbn [bind]. rewrite <- occ_all. apply sunday_never_wrong; auto; apply ms_sound; auto.
  - intros Hk Hm Hb. unfold match_ms. destruct (sunday_make_ok key) as (pats & E & Hp). rewrite E. cbn [bind]. destruct (qs_make_ok key Hk) as (td1 & E1 & L1 & T1). rewrite E1. cbn [bind].
    destruct (ms_make_ok key text pats Hp Hk Hn) as (td2 & E2 & L2 & T2). rewrite E2. cbn [bind]. rewrite <- occ_all. apply sunday_fine; auto; apply ms_sound; auto.
Qed.

(** ** Kmp *)
Section Kmp.
Variable key text beyond : list N.
Let m := length key.
Let T := fun j => nth j text 0%N.
Hypothesis Hm : 1 <= m.
Variable next : list Z.
Hypothesis F : filled key next m.
(** occurrences that end behind i and not behind i + k *)
Definition ending (i k : nat) : list nat := map (fun q => q - m) (filter (fun q => (m <=? q) && occurs_at key text (q - m)) (seq (S i) k)).
Lemma ending_S : forall i k, ending i (S k) = (if (m <=? S i) && occurs_at key text (S i - m) then [S i - m] else []) ++ ending (S i) k.
Proof. intros i k. unfold ending. cbn [seq filter]. destruct ((m <=? S i) && _); reflexivity. Qed.
Lemma kmp_prefix : forall k i pos, i + k <= length text -> lolong key text 0 i pos -> (forall j, i <= j < i + k -> tb key text j m -> ends_safely text beyond j) ->
  exists p', lolong key text 0 (i + k) p' /\ kmp_loop (key ++ beyond) m next (skipn i text) i (Z.of_nat pos) = do r <- kmp_loop (key ++ beyond) m next (skipn (i + k) text) (i + k) (Z.of_nat p'); Ok (ending i k ++ r).
Proof.
  induction k as [|k IH]; intros i pos Hk Lg Safe.
  - exists pos. rewrite Nat.add_0_r. split; auto. destruct (kmp_loop _ _ _ _ _ _); reflexivity.
  - rewrite (skipn_cons' text i) by lia. cbn [kmp_loop]. destruct (kmp_step key text beyond Hm next 0 i pos F ltac:(lia) Lg ltac:(lia)) as (p & Ep & Lp).
    { intros ->. apply (Safe i); [lia|]. apply Lg. }
    apply bind_Ok_inv in Ep. destruct Ep as (r & Er & Ep). fold m in Er. rewrite Er. cbn [bind]. injection Ep as Ep. rewrite Ep.
    destruct (IH (S i) p ltac:(lia) Lp) as (p' & L' & E); [intros; apply Safe; auto; lia|]. exists p'. replace (i + S k) with (S i + k) by lia. split; auto. rewrite E.
    rewrite ending_S. assert (Eq : (Z.of_nat p =? Z.of_nat m)%Z = (m <=? S i) && occurs_at key text (S i - m)).
    { apply eq_true_iff_eq. rewrite Z.eqb_eq, andb_true_iff, Nat.leb_le. pose proof (occ_tb key text (S i) ltac:(lia) Hm) as O. fold m in O. rewrite <- O. destruct Lp as (T1 & T2 & T3). split.
      - intros Q. assert (p = m) by lia. subst p. exact T1.
      - intros Q. pose proof (T3 m Q ltac:(destruct Q; lia)). destruct T1 as (_ & T1 & _). fold m in T1. lia. }
    rewrite <- Eq. destruct (kmp_loop (key ++ beyond) m next (skipn (S i + k) text) (S i + k) (Z.of_nat p')); cbn [bind]; auto. replace (i + 1 - m) with (S i - m) by lia. destruct (Z.of_nat p =? Z.of_nat m)%Z; reflexivity.
Qed.
Lemma ending_all : forall e, e <= length text -> ending 0 e = filter (fun x => x + m <=? e) (occurrences key text).
Proof.
  intros e He. transitivity (filter (occurs_at key text) (seq 0 (e + 1 - m))).
  - clear He. unfold ending. induction e as [|e IH].
    + replace (0 + 1 - m) with 0 by lia. reflexivity.
    + rewrite seq_S, filter_app, map_app, IH. cbn [filter]. change (1 + e) with (S e). destruct (Nat.leb_spec m (S e)); cbn [andb].
      * replace (S e + 1 - m) with (S (e + 1 - m)) by lia. rewrite seq_S, filter_app. cbn [filter]. rewrite Nat.add_0_l. replace (S e - m) with (e + 1 - m) by lia. destruct (occurs_at key text (e + 1 - m)); auto. cbn [map]. do 2 f_equal. lia.
      * cbn [map]. rewrite app_nil_r. replace (e + 1 - m) with 0 by lia. replace (S e + 1 - m) with 0 by lia. reflexivity.
  - unfold occurrences. replace (S (length text)) with ((e + 1 - m) + (S (length text) - (e + 1 - m))) by lia. rewrite seq_app, !filter_app.
    assert (E2 : filter (fun x => x + m <=? e) (filter (occurs_at key text) (seq (0 + (e + 1 - m)) (S (length text) - (e + 1 - m)))) = []).
    { apply filter_nil. intros x Hx. apply filter_In in Hx. destruct Hx as (Hx & _). apply in_seq in Hx. apply Nat.leb_gt. lia. }
    rewrite E2, app_nil_r. symmetry. assert (G : forall l, (forall x, In x l -> x + m <= e) -> filter (fun x => x + m <=? e) l = l).
    { induction l as [|a l IH]; intros H; auto. cbn [filter]. rewrite (proj2 (Nat.leb_le _ _)) by (apply H; now left). f_equal. apply IH. intros; apply H; now right. }
    apply G. intros x Hx. apply filter_In in Hx. destruct Hx as (Hx & _). apply in_seq in Hx. lia.
Qed.
(** behind the key nothing is reported; a mismatch reads next out of range *)
Lemma kmp_run_out : forall t k i, skipn k beyond = t ++ skipn (k + length t) beyond -> k + length t <= length beyond ->
  kmp_loop (key ++ beyond) m next t i (Z.of_nat (m + k)) = Ok [].
Proof.
  induction t as [|c t IH]; intros k i Hs Hl; cbn [kmp_loop]; auto. cbn [length] in *.
  assert (Ec : nth k beyond 0%N = c). { pose proof (skipn_cons' beyond k ltac:(lia)) as E. rewrite E in Hs. cbn [app] in Hs. congruence. }
  cbn [kmp_back]. rewrite (proj2 (Z.eqb_neq _ _)) by lia. rewrite Nat2Z.id. rewrite (lget_nth _ _ (m + k) 0%N) by (rewrite app_length; fold m; lia). cbn [bind].
  rewrite app_nth2 by (fold m; lia). fold m. replace (m + k - m) with k by lia. rewrite Ec, N.eqb_refl. cbn [bind]. replace (Z.of_nat (m + k) + 1)%Z with (Z.of_nat (m + S k)) by lia.
  rewrite IH; [|rewrite (skipn_cons' beyond k) in Hs by lia; cbn [app] in Hs; replace (k + S (length t)) with (S k + length t) in Hs by lia; congruence|lia]. cbn [bind]. rewrite (proj2 (Z.eqb_neq _ _)) by lia. reflexivity.
Qed.
Lemma kmp_run_bad : forall t k i, (k = 0 -> match beyond, t with z :: _, c :: _ => z = c | _, _ => True end) -> ~ (exists r, skipn k beyond = t ++ r) -> k <= length beyond ->
  kmp_loop (key ++ beyond) m next t i (Z.of_nat (m + k)) = UB.
Proof.
  induction t as [|c t IH]; intros k i H0 Nr Hl; [exfalso; apply Nr; exists (skipn k beyond); reflexivity|]. cbn [kmp_loop kmp_back]. rewrite (proj2 (Z.eqb_neq _ _)) by lia. rewrite Nat2Z.id.
  destruct (Nat.eq_dec k (length beyond)) as [El|Nl].
  - assert (X : lget (key ++ beyond) (m + k) = UB) by (apply lget_UB; rewrite app_length; fold m; lia). rewrite X. reflexivity.
  - rewrite (lget_nth _ _ (m + k) 0%N) by (rewrite app_length; fold m; lia). cbn [bind]. rewrite app_nth2 by (fold m; lia). fold m. replace (m + k - m) with k by lia. destruct (N.eqb_spec (nth k beyond 0%N) c) as [Ec|Nc].
    + cbn [bind]. replace (Z.of_nat (m + k) + 1)%Z with (Z.of_nat (m + S k)) by lia. rewrite IH; [reflexivity|lia| |lia]. intros (r & E). apply Nr. exists r. rewrite (skipn_cons' beyond k) by lia. rewrite E, Ec. reflexivity.
    + destruct (Nat.eq_dec k 0) as [->|Nk].
      * exfalso. apply Nc. specialize (H0 eq_refl). destruct beyond as [|z b]; [simpl in Nl; lia|]. exact H0.
      * assert (X : lget next (m + k) = UB) by (apply lget_UB; pose proof (proj1 F) as Ln; fold m in Ln; lia). rewrite X. reflexivity.
Qed.
Lemma tb_escapes : forall e, e < length text -> (tb key text e m /\ ~ ends_safely text beyond e <-> escapes beyond text key e).
Proof.
  intros e He. pose proof (occ_tb key text e ltac:(lia) Hm) as O. fold m in O. rewrite O. unfold escapes, ends_safely. fold m. split.
  - intros ((L & Oc) & NS). split; [lia|]. split; auto. destruct beyond as [|z b]; auto. destruct (N.eq_dec z (nth e text 0%N)); auto. exfalso. apply NS. exists z, b. auto.
  - intros ((L & _) & Oc & Eb). split; auto. intros (z & r & -> & Nz). contradiction.
Qed.
Lemma safe_dec : forall j, ends_safely text beyond j \/ ~ ends_safely text beyond j.
Proof.
  intros j. unfold ends_safely. destruct beyond as [|z b]; [right; intros (z & r & E & _); discriminate|]. destruct (N.eq_dec z (nth j text 0%N)) as [->|]; [right; intros (z & r & E & N'); congruence|left; exists z, b; auto].
Qed.
Lemma longest_start : lolong key text 0 0 0.
Proof. split; [split; [lia|]; split; [lia|]; intros; lia|]. split; [lia|]. intros b' (L & _) _. exact L. Qed.
Lemma kmp_upto : forall e, e <= length text -> (forall e', e' < e -> ~ escapes beyond text key e') ->
  exists p', lolong key text 0 e p' /\ kmp_loop (key ++ beyond) m next text 0 0%Z = do r <- kmp_loop (key ++ beyond) m next (skipn e text) e (Z.of_nat p'); Ok (filter (fun x => x + m <=? e) (occurrences key text) ++ r).
Proof.
  intros e He NE. destruct (kmp_prefix e 0 0 ltac:(lia) longest_start) as (p' & L' & E).
  - intros j Hj Tj. destruct (safe_dec j) as [S1|S1]; auto. exfalso. apply (NE j); [lia|]. apply tb_escapes; [lia|]. auto.
  - exists p'. cbn [plus] in L', E. split; auto. rewrite skipn_O in E. change (Z.of_nat 0) with 0%Z in E. rewrite E. now rewrite ending_all by auto.
Qed.
End Kmp.
Theorem kmp_exact : forall beyond text key, key <> [] ->
  ((forall e, ~ escapes beyond text key e) -> match_kmp beyond text key = Ok (occurrences key text)) /\
  (forall e, escapes beyond text key e -> (forall e', e' < e -> ~ escapes beyond text key e') ->
    (begins_with beyond (skipn e text) -> match_kmp beyond text key = Ok (filter (fun x => x + length key <=? e) (occurrences key text))) /\
    (~ begins_with beyond (skipn e text) -> match_kmp beyond text key = UB)).
Proof.
  intros beyond text key Nk. assert (Hm : 1 <= length key) by (destruct key; [congruence|simpl; lia]). unfold match_kmp. destruct (kmp_make_ok key Hm) as (next & E & F). rewrite E. cbn [bind]. split.
  - intros NE. destruct (kmp_upto key text beyond Hm next F (length text) (le_n _)) as (p' & _ & R); [auto|]. rewrite R, skipn_all. cbn [kmp_loop bind]. rewrite app_nil_r. f_equal.
    unfold occurrences. generalize (seq 0 (S (length text))) (fun x => occurs_spec key text x) . intros l _.
    assert (G : forall l, (forall x, In x l -> x + length key <= length text) -> filter (fun x => x + length key <=? length text) l = l).
    { induction l0 as [|a l0 IH]; intros H; auto. cbn [filter]. rewrite (proj2 (Nat.leb_le _ _)) by (apply H; now left). f_equal. apply IH. intros; apply H; now right. }
    apply G. intros x Hx. apply filter_In in Hx. destruct Hx as (_ & Ox). unfold occurs_at in Ox. destruct (list_eq_dec N.eq_dec (firstn (length key) (skipn x text)) key) as [Ex|]; [|discriminate].
    pose proof (f_equal (@length N) Ex) as L. rewrite firstn_length, skipn_length in L. lia.
  - intros e Es Mn. assert (He : e < length text) by apply Es. destruct (kmp_upto key text beyond Hm next F e ltac:(lia) Mn) as (p' & (T1 & T2 & T3) & R). rewrite R. pose proof (proj2 (tb_escapes key text beyond Hm e He) Es) as (Tm & _).
    assert (p' = length key). { pose proof (T3 _ Tm ltac:(destruct Es as ((? & _) & _); lia)). destruct T1 as (_ & T1 & _). lia. } subst p'.
    split.
    + intros (r & Er). assert (X : kmp_loop (key ++ beyond) (length key) next (skipn e text) e (Z.of_nat (length key + 0)) = Ok []).
      { apply kmp_run_out; auto; cbn [plus]; rewrite ?skipn_O, Er.
        - rewrite skipn_app, skipn_all, Nat.sub_diag. reflexivity.
        - rewrite app_length. lia. }
      rewrite Nat.add_0_r in X. rewrite X. cbn [bind]. now rewrite app_nil_r.
    + intros Nr. assert (X : kmp_loop (key ++ beyond) (length key) next (skipn e text) e (Z.of_nat (length key + 0)) = UB).
      { apply kmp_run_bad; auto; try lia. intros _. destruct Es as (_ & _ & Eb). destruct beyond as [|z b]; auto. rewrite (skipn_cons' text e He). exact Eb. }
      rewrite Nat.add_0_r in X. rewrite X. reflexivity.
Qed.
