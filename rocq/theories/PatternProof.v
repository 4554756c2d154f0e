(** Proofs about PatternModel: Simple, Bm, SundayQS, SundayMS. *)
From Coq Require Import List NArith ZArith Arith Bool Lia Permutation.
From Verif Require Import Base Spec4 PatternModel.
Import ListNotations.
Local Open Scope nat_scope.

(** ** occurrences *)
Lemma nth_eq_lists : forall (a b : list N), length a = length b -> (forall j, j < length a -> nth j a 0%N = nth j b 0%N) -> a = b.
Proof. intros a b L H. apply (nth_ext a b 0%N 0%N L H). Qed.
Lemma nth_skipn' : forall (l : list N) i j d, nth j (skipn i l) d = nth (i + j) l d.
Proof. intros l i. revert l. induction i as [|i IH]; intros [|a l] j d; simpl; auto. destruct j; auto. Qed.
Lemma nth_firstn' : forall (l : list N) k j d, j < k -> nth j (firstn k l) d = nth j l d.
Proof. induction l as [|a l IH]; intros [|k] [|j] d H; simpl; auto; try lia. apply IH. lia. Qed.
Lemma occurs_spec : forall key text i, i <= length text ->
  (occurs_at key text i = true <-> i + length key <= length text /\ forall j, j < length key -> nth j key 0%N = nth (i + j) text 0%N).
Proof.
  intros key text i Hi. unfold occurs_at. destruct (list_eq_dec N.eq_dec (firstn (length key) (skipn i text)) key) as [E|E].
  - split; auto. intros _. pose proof (f_equal (@length N) E) as L. rewrite firstn_length, skipn_length in L. split; [lia|]. intros j Hj. rewrite <- E at 1. rewrite nth_firstn' by auto. now rewrite nth_skipn'.
  - split; [discriminate|]. intros (L & H). exfalso. apply E. apply nth_eq_lists.
    + rewrite firstn_length, skipn_length. lia.
    + intros j Hj. rewrite firstn_length, skipn_length in Hj. rewrite nth_firstn', nth_skipn' by lia. symmetry. apply H. lia.
Qed.
Lemma filter_skip : forall (p : nat -> bool) s i k, (forall x, i <= x < i + s -> x < i + k -> p x = false) -> filter p (seq i k) = filter p (seq (i + s) (k - s)).
Proof.
  intros p. induction s as [|s IH]; intros i k H; [now rewrite Nat.add_0_r, Nat.sub_0_r|]. destruct k as [|k]; [now rewrite Nat.sub_0_l|]. cbn [seq filter]. rewrite H by lia.
  rewrite IH by (intros; apply H; lia). now rewrite Nat.add_succ_r.
Qed.
Lemma filter_none : forall (p : nat -> bool) i k, (forall x, i <= x < i + k -> p x = false) -> filter p (seq i k) = [].
Proof. intros p i k H. rewrite (filter_skip p k i k) by (intros; apply H; lia). rewrite Nat.sub_diag. reflexivity. Qed.
(** occurrences from position i on *)
Definition occ_from (key text : list N) (i : nat) : list nat := filter (occurs_at key text) (seq i (S (length text) - i)).
Lemma occ_all : forall key text, occ_from key text 0 = occurrences key text.
Proof. reflexivity. Qed.
Lemma occ_past : forall key text i, length text < i + length key -> occ_from key text i = [].
Proof.
  intros key text i H. unfold occ_from. apply filter_none. intros x Hx. destruct (occurs_at key text x) eqn:E; auto. apply occurs_spec in E; lia.
Qed.
Lemma occ_step : forall key text i s, i <= length text -> 1 <= s -> (forall x, i < x < i + s -> x <= length text -> occurs_at key text x = false) ->
  occ_from key text i = if occurs_at key text i then i :: occ_from key text (i + s) else occ_from key text (i + s).
Proof.
  intros key text i s Hi Hs H. unfold occ_from. replace (S (length text) - i) with (S (length text - i)) by lia. cbn [seq filter].
  assert (E : filter (occurs_at key text) (seq (S i) (length text - i)) = filter (occurs_at key text) (seq (i + s) (S (length text) - (i + s)))).
  { rewrite (filter_skip _ (s - 1) (S i)) by (intros; apply H; lia). replace (S i + (s - 1)) with (i + s) by lia. do 2 f_equal. lia. }
  rewrite E. destruct (occurs_at key text i); auto.
Qed.

(** ** Simple *)
Lemma simple_pos_ok : forall fuel key text i pos, i + length key <= length text -> pos <= length key -> length key - pos < fuel ->
  exists p, simple_pos fuel key text i pos = Ok p /\ pos <= p <= length key /\ (forall j, pos <= j < p -> nth j key 0%N = nth (i + j) text 0%N) /\ (p < length key -> nth p key 0%N <> nth (i + p) text 0%N).
Proof.
  induction fuel as [|fuel IH]; intros key text i pos Hi Hp Hf; [lia|]. cbn [simple_pos]. destruct (Nat.ltb_spec pos (length key)).
  - rewrite (lget_nth _ key pos 0%N) by auto. rewrite (lget_nth _ text (i + pos) 0%N) by lia. cbn [bind]. destruct (N.eqb_spec (nth pos key 0%N) (nth (i + pos) text 0%N)) as [E|E].
    + destruct (IH key text i (S pos) Hi ltac:(lia) ltac:(lia)) as (p & Ep & B & M & Q). exists p. split; auto. split; [lia|]. split; auto. intros j Hj. destruct (Nat.eq_dec j pos) as [->|]; auto. apply M. lia.
    + exists pos. split; auto. split; [lia|]. split; auto. intros; lia.
  - exists pos. split; auto. split; [lia|]. split; intros; lia.
Qed.
Lemma simple_loop_ok : forall fuel key text i, length key <= length text -> S (length text) - i <= fuel -> simple_loop fuel key text i = Ok (occ_from key text i).
Proof.
  induction fuel as [|fuel IH]; intros key text i Hl Hf; cbn [simple_loop]; destruct (Nat.ltb_spec (length text - length key) i); try (rewrite occ_past by lia; reflexivity); try lia.
  destruct (simple_pos_ok (S (length key)) key text i 0 ltac:(lia) ltac:(lia) ltac:(lia)) as (p & Ep & B & M & Q). rewrite Ep. cbn [bind]. rewrite IH by lia. cbn [bind]. rewrite (occ_step key text i 1) by (intros; lia). rewrite Nat.add_1_r. f_equal.
  destruct (Nat.eqb_spec p (length key)) as [->|Np].
  - assert (E : occurs_at key text i = true) by (apply occurs_spec; [lia|]; split; [lia|]; intros; apply M; lia). now rewrite E.
  - destruct (occurs_at key text i) eqn:E; auto. apply occurs_spec in E; [|lia]. exfalso. apply Q; [lia|]. apply E. lia.
Qed.
Theorem simple_correct : forall text key, match_simple text key = Ok (occurrences key text).
Proof.
  intros text key. unfold match_simple. destruct (Nat.ltb_spec (length text) (length key)).
  - rewrite <- occ_all, occ_past by lia. reflexivity.
  - now apply simple_loop_ok.
Qed.

(** ** tables indexed by characters *)
(** the last j < k with key[j] = c *)
Definition last_at (key : list N) (k : nat) (c : N) (j : nat) : Prop := j < k /\ nth j key 0%N = c /\ forall x, j < x < k -> nth x key 0%N <> c.
Lemma table_ok : forall key f d sz, 128 <= sz -> (forall j, j < length key -> (nth j key 0 < 128)%N \/ False) -> forall k, k <= length key ->
  exists tb, foldM (fun tb i => do c <- lget key i; do x <- char_index c; lset tb x (f i)) (seq 0 k) (repeat d sz) = Ok tb /\ length tb = sz /\
    forall c, (N.to_nat c < sz) -> (exists j, last_at key k c j /\ nth (N.to_nat c) tb 0 = f j) \/ ((forall j, j < k -> nth j key 0%N <> c) /\ nth (N.to_nat c) tb 0 = d).
Proof.
  intros key f d sz Hsz Hb. induction k as [|k IH]; intros Hk.
  - exists (repeat d sz). split; auto. rewrite repeat_length. split; auto. intros c Hc. right. split; [intros; lia|]. now rewrite nth_repeat_lt.
  - destruct (IH ltac:(lia)) as (tb & E & L & T). rewrite seq_S, foldM_app, E. cbn [bind foldM plus]. rewrite (lget_nth _ key k 0%N) by lia. cbn [bind]. unfold char_index.
    destruct (Hb k ltac:(lia)) as [B|[]]. rewrite (proj2 (N.ltb_lt _ _)) by auto. cbn [bind]. rewrite lset_Ok by lia. cbn [bind]. eexists. split; [reflexivity|]. rewrite upd_length. split; auto.
    intros c Hc. rewrite nth_upd. destruct (Nat.eqb_spec (N.to_nat c) (N.to_nat (nth k key 0%N))) as [Ec|Nc].
    + left. exists k. rewrite (proj2 (Nat.ltb_lt _ _)) by lia. cbn [andb]. split; auto. split; [lia|]. split; [lia|]. intros; lia.
    + cbn [andb]. destruct (T c Hc) as [(j & (J1 & J2 & J3) & Ej)|(J & Ej)].
      * left. exists j. split; auto. split; [lia|]. split; auto. intros x Hx. destruct (Nat.eq_dec x k) as [->|]; [congruence|apply J3; lia].
      * right. split; auto. intros j Hj. destruct (Nat.eq_dec j k) as [->|]; [congruence|apply J; lia].
Qed.

(** ** Bm *)
Lemma bm_back_ok : forall key text cnt pos, cnt <= length key -> cnt <= pos -> pos <= length text ->
  exists b, bm_back key text cnt pos = Ok b /\ (b = true <-> forall j, j < cnt -> nth j key 0%N = nth (pos - cnt + j) text 0%N).
Proof.
  intros key text. induction cnt as [|k IH]; intros pos Hc Hp Ht; cbn [bm_back].
  - exists true. split; auto. split; auto. intros; lia.
  - rewrite (lget_nth _ key k 0%N) by lia. cbn [bind]. destruct pos as [|pos]; [lia|]. rewrite (lget_nth _ text pos 0%N) by lia. cbn [bind].
    destruct (N.eqb_spec (nth k key 0%N) (nth pos text 0%N)) as [E|E].
    + destruct (IH pos ltac:(lia) ltac:(lia) ltac:(lia)) as (b & Eb & Hb). exists b. split; auto. rewrite Hb. replace (S pos - S k) with (pos - k) by lia. split; intros H j Hj; [|apply H; lia].
      destruct (Nat.eq_dec j k) as [->|]; [|apply H; lia]. replace (pos - k + k) with pos by lia. auto.
    + exists false. split; auto. split; [discriminate|]. intros H. exfalso. apply E. specialize (H k ltac:(lia)). now replace (S pos - S k + k) with pos in H by lia.
Qed.
Lemma bytes_below_nth : forall b s j, bytes_below b s -> j < length s -> (nth j s 0 < b)%N.
Proof. intros b s j H Hj. unfold bytes_below in H. rewrite Forall_forall in H. apply H. now apply nth_In. Qed.
Lemma bm_loop_ok : forall key text skip, 1 <= length key -> bytes_below 128 text -> length skip = 255 ->
  (forall c, N.to_nat c < 255 -> (exists j, last_at key (length key - 1) c j /\ nth (N.to_nat c) skip 0 = length key - j - 1) \/ ((forall j, j < length key - 1 -> nth j key 0%N <> c) /\ nth (N.to_nat c) skip 0 = length key)) ->
  forall fuel i, length key - 1 <= i -> S (length text) - i <= fuel -> bm_loop fuel key text skip i = Ok (occ_from key text (i + 1 - length key)).
Proof.
  intros key text skip Hk Hb Ls Ts. induction fuel as [|fuel IH]; intros i Hi Hf; cbn [bm_loop]; destruct (Nat.leb_spec (length text) i); try (rewrite occ_past by lia; reflexivity); try lia.
  destruct (bm_back_ok key text (length key) (S i) (le_n _) ltac:(lia) ltac:(lia)) as (b & Eb & Hb'). rewrite Eb. cbn [bind]. rewrite (lget_nth _ text i 0%N) by lia. cbn [bind]. unfold char_index.
  pose proof (bytes_below_nth _ _ i Hb ltac:(lia)) as Bc. rewrite (proj2 (N.ltb_lt _ _)) by auto. cbn [bind]. rewrite (lget_nth _ skip _ 0) by (rewrite Ls; lia). cbn [bind].
  set (c := nth i text 0%N) in *. set (s := nth (N.to_nat c) skip 0).
  assert (S1 : 1 <= s <= length key). { unfold s. destruct (Ts c ltac:(lia)) as [(j & (J1 & _) & ->)|(_ & ->)]; lia. }
  rewrite IH by lia. cbn [bind]. f_equal. rewrite (occ_step key text (i + 1 - length key) s); [|lia|lia|].
  - replace (i + 1 - length key + s) with (i + s + 1 - length key) by lia.
    assert (E : occurs_at key text (i + 1 - length key) = b). { apply eq_true_iff_eq. rewrite Hb'. rewrite occurs_spec by lia. replace (S i - length key) with (i + 1 - length key) by lia. split; [intros (_ & H'); auto|]. intros H'. split; [lia|auto]. }
    rewrite E. destruct b; auto.
  - intros x Hx Hxl. destruct (occurs_at key text x) eqn:E; auto. exfalso. apply occurs_spec in E; auto. destruct E as (E1 & E2).
    (* text[i] is compared with key[i - x] *)
    specialize (E2 (i - x) ltac:(lia)). replace (x + (i - x)) with i in E2 by lia. fold c in E2. unfold s in Hx.
    destruct (Ts c ltac:(lia)) as [(j & (J1 & J2 & J3) & Ej)|(J & Ej)]; rewrite Ej in Hx.
    + apply (J3 (i - x)); [lia|auto].
    + apply (J (i - x)); [lia|auto].
Qed.
Theorem bm_correct : forall text key, key <> [] -> bytes_below 128 text -> bytes_below 128 (removelast key) -> match_bm text key = Ok (occurrences key text).
Proof.
  intros text key Nk Ht Hk. unfold match_bm, bm_make. assert (L1 : 1 <= length key) by (destruct key; [congruence|simpl; lia]). rewrite (proj2 (Nat.eqb_neq _ _)) by lia.
  pose (key1 := removelast key). assert (Ll : length key1 = length key - 1) by (unfold key1; rewrite removelast_firstn_len, firstn_length; lia).
  assert (En : forall j, j < length key - 1 -> nth j key1 0%N = nth j key 0%N) by (intros j Hj; unfold key1; rewrite removelast_firstn_len; apply nth_firstn'; lia).
  destruct (table_ok key1 (fun i => length key - i - 1) (length key) 255 ltac:(lia)) with (k := length key - 1) as (tb & E & L & T); [intros j Hj; left; apply bytes_below_nth; auto|lia|].
  assert (E' : foldM (fun skip i => do c <- lget key i; do x <- char_index c; lset skip x (length key - i - 1)) (seq 0 (length key - 1)) (repeat (length key) 255) = Ok tb).
  { rewrite <- E. clear E. assert (G : forall k s, s + k <= length key - 1 -> forall acc, foldM (fun skip i => do c <- lget key i; do x <- char_index c; lset skip x (length key - i - 1)) (seq s k) acc = foldM (fun tb i => do c <- lget key1 i; do x <- char_index c; lset tb x (length key - i - 1)) (seq s k) acc).
    { induction k as [|k IHk]; intros s Hs acc; auto. cbn [seq foldM]. rewrite (lget_nth _ key s 0%N), (lget_nth _ key1 s 0%N) by lia. rewrite En by lia. cbn [bind].
      destruct (char_index (nth s key 0%N)) as [x| | |]; cbn [bind]; auto. destruct (lset acc x (length key - s - 1)); cbn [bind]; auto. apply IHk. lia. }
    apply G. lia. }
  rewrite E'. cbn [bind]. rewrite <- occ_all. rewrite (bm_loop_ok key text tb L1 Ht L); [do 2 f_equal; lia| |lia|lia].
  intros c Hc. destruct (T c Hc) as [(j & (J1 & J2 & J3) & Ej)|(J & Ej)].
  - left. exists j. split; auto. split; auto. rewrite <- En by auto. split; auto. intros x Hx. rewrite <- En by lia. now apply J3.
  - right. split; auto. intros j Hj. rewrite <- En by auto. now apply J.
Qed.
