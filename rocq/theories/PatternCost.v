(** The number of comparisons the matchers make (C130). *)
From Coq Require Import List NArith ZArith Arith Bool Lia.
From Verif Require Import Base Spec4 PatternModel FoModel PatternCostModel FoProof PatternProof KmpProof SundayProof.
Import ListNotations.
Local Open Scope nat_scope.

Ltac step e := destruct e; cbn [bind rmap]; auto.

(** ** Simple *)
Lemma simple_pos_same : forall key text i fuel pos k, rmap snd (simple_pos_count fuel key text i pos k) = simple_pos fuel key text i pos.
Proof.
  intros key text i. induction fuel as [|fuel IH]; intros pos k; cbn [simple_pos_count simple_pos]; auto. destruct (pos <? length key); auto.
  step (lget key pos). step (lget text (i + pos)). destruct (_ =? _)%N; auto.
Qed.
Lemma simple_pos_cost : forall key text i fuel pos k k' p, pos <= length key -> simple_pos_count fuel key text i pos k = Ok (k', p) -> k + 1 <= k' + (if pos <? length key then 0 else 1) /\ k' <= k + (length key - pos).
Proof.
  intros key text i. induction fuel as [|fuel IH]; intros pos k k' p Hp; cbn [simple_pos_count]; [discriminate|]. destruct (Nat.ltb_spec pos (length key)).
  - destruct (lget key pos); cbn [bind]; try discriminate. destruct (lget text (i + pos)); cbn [bind]; try discriminate. destruct (_ =? _)%N; intros E.
    + apply IH in E; [|lia]. destruct (S pos <? length key); lia.
    + injection E as <- <-. lia.
  - intros E. injection E as <- <-. lia.
Qed.
Lemma simple_loop_same : forall key text fuel i k, rmap snd (simple_loop_count fuel key text i k) = simple_loop fuel key text i.
Proof.
  intros key text. induction fuel as [|fuel IH]; intros i k; cbn [simple_loop_count simple_loop]; destruct (_ <? i); auto.
  rewrite <- (simple_pos_same key text i _ 0 k). step (simple_pos_count (S (length key)) key text i 0 k). rewrite <- (IH (S i) (fst a)). step (simple_loop_count fuel key text (S i) (fst a)).
Qed.
Lemma simple_loop_cost : forall key text fuel i k k' l, length key <= length text -> simple_loop_count fuel key text i k = Ok (k', l) ->
  k + (if length key =? 0 then 0 else length text + 1 - length key - i) <= k' /\ k' <= k + length key * (length text + 1 - length key - i).
Proof.
  intros key text. induction fuel as [|fuel IH]; intros i k k' l Hk; cbn [simple_loop_count]; destruct (Nat.ltb_spec (length text - length key) i); intros E.
  - injection E as <- <-. destruct (length key =? 0); nia.
  - discriminate.
  - injection E as <- <-. destruct (length key =? 0); nia.
  - apply bind_Ok_inv in E. destruct E as ([k1 p] & E1 & E). apply bind_Ok_inv in E. destruct E as ([k2 r] & E2 & E). cbn [fst snd] in *. injection E as <- _.
    apply simple_pos_cost in E1; [|lia]. apply IH in E2; auto. replace (length text + 1 - length key - i) with (S (length text + 1 - length key - S i)) by lia.
    destruct (Nat.ltb_spec 0 (length key)); destruct (Nat.eqb_spec (length key) 0); try lia; nia.
Qed.
Lemma simple_cost : forall text key, exists k, match_simple_count text key = Ok (k, occurrences key text) /\ k <= length key * (length text + 1 - length key) /\ (key <> [] -> length text + 1 - length key <= k).
Proof.
  intros text key. pose proof (simple_correct text key) as C. unfold match_simple in C. unfold match_simple_count. destruct (Nat.ltb_spec (length text) (length key)).
  - injection C as C. rewrite <- C. exists 0. split; auto. split; [lia|]. intros. lia.
  - rewrite <- (simple_loop_same key text _ 0 0) in C. destruct (simple_loop_count (S (length text)) key text 0 0) as [[k l]| | |] eqn:E; try discriminate. injection C as C. cbn [snd] in C. subst l. exists k. split; auto. apply simple_loop_cost in E; auto.
    rewrite Nat.sub_0_r in E. split; [lia|]. intros N. destruct key; [congruence|]. cbn [length Nat.eqb] in *. lia.
Qed.

(** ** Kmp *)
Lemma kmp_back_same : forall mem next c fuel n k, rmap snd (kmp_back_count fuel mem next c n k) = kmp_back fuel mem next c n.
Proof.
  intros mem next c. induction fuel as [|fuel IH]; intros n k; cbn [kmp_back_count kmp_back]; destruct (n =? -1)%Z; auto; step (lget mem (Z.to_nat n)); destruct (_ =? _)%N; auto. step (lget next (Z.to_nat n)).
Qed.
(** every entry is smaller than its index *)
Definition falling (next : list Z) : Prop := forall j, j < length next -> (-1 <= nth j next 0 < Z.of_nat j)%Z.
Lemma kmp_back_cost : forall mem next c, falling next -> forall fuel n k k' r, (-1 <= n)%Z -> kmp_back_count fuel mem next c n k = Ok (k', r) -> (-1 <= r <= n)%Z /\ (Z.of_nat k' <= Z.of_nat k + n - r + (if r =? -1 then 0 else 1))%Z.
Proof.
  intros mem next c F. induction fuel as [|fuel IH]; intros n k k' r Hn; cbn [kmp_back_count]; destruct (Z.eqb_spec n (-1)).
  - intros E. injection E as <- <-. subst n. cbn. lia.
  - destruct (lget mem (Z.to_nat n)); cbn [bind]; try discriminate. destruct (_ =? _)%N; try discriminate. intros E. injection E as <- <-. rewrite (proj2 (Z.eqb_neq _ _)) by lia. lia.
  - intros E. injection E as <- <-. subst n. cbn. lia.
  - destruct (lget mem (Z.to_nat n)); cbn [bind]; try discriminate. destruct (_ =? _)%N.
    + intros E. injection E as <- <-. rewrite (proj2 (Z.eqb_neq _ _)) by lia. lia.
    + destruct (Nat.lt_ge_cases (Z.to_nat n) (length next)) as [L|L]; [|rewrite (proj2 (lget_UB _ _ _)) by lia; discriminate].
      rewrite (lget_nth _ next _ 0%Z) by auto. cbn [bind]. intros E. specialize (F _ L). apply IH in E; [|lia]. destruct (r =? -1)%Z; lia.
Qed.
Lemma kmp_loop_same : forall mem m next text i pos k, rmap snd (kmp_loop_count mem m next text i pos k) = kmp_loop mem m next text i pos.
Proof.
  intros mem m next. induction text as [|c text IH]; intros i pos k; cbn [kmp_loop_count kmp_loop]; auto. rewrite <- (kmp_back_same mem next c (S m) pos k). step (kmp_back_count (S m) mem next c pos k).
  rewrite <- (IH (S i) (snd a + 1)%Z (fst a)). step (kmp_loop_count mem m next text (S i) (snd a + 1)%Z (fst a)).
Qed.
Lemma kmp_loop_cost : forall mem m next, falling next -> forall text i pos k k' l, (0 <= pos)%Z -> kmp_loop_count mem m next text i pos k = Ok (k', l) -> (Z.of_nat k' <= Z.of_nat k + pos + 2 * Z.of_nat (length text))%Z.
Proof.
  intros mem m next F. induction text as [|c text IH]; intros i pos k k' l Hp; cbn [kmp_loop_count length].
  - intros E. injection E as <- <-. lia.
  - intros E. apply bind_Ok_inv in E. destruct E as ([k1 p] & E1 & E). apply bind_Ok_inv in E. destruct E as ([k2 r] & E2 & E). cbn [fst snd] in *. injection E as <- _.
    apply kmp_back_cost in E1; auto; [|lia]. apply IH in E2; [|lia]. destruct (p =? -1)%Z; lia.
Qed.
Lemma kmp_fill_same : forall key k next n i, rmap snd (kmp_fill_count key (k, (next, n)) i) = kmp_fill key (next, n) i.
Proof.
  intros key k next n i. unfold kmp_fill_count, kmp_fill. step (lget key i). rewrite <- (kmp_back_same key next a (S (length key)) n k). step (kmp_back_count (S (length key)) key next a n k).
  destruct a0 as [k1 n1]. cbn [snd]. destruct (i + 1 <? length key).
  - step (lget key (i + 1)). step (lget key (Z.to_nat (n1 + 1))). destruct (_ =? _)%N.
    + step (lget next (Z.to_nat (n1 + 1))). cbn [fst snd]. step (lset next (i + 1) a2).
    + cbn [bind fst snd]. step (lset next (i + 1) (n1 + 1)%Z).
  - cbn [bind fst snd]. step (lset next (i + 1) (n1 + 1)%Z).
Qed.
Lemma kmp_fills_same : forall key l k s, rmap snd (foldM (kmp_fill_count key) l (k, s)) = foldM (kmp_fill key) l s.
Proof.
  intros key. induction l as [|i l IH]; intros k [next n]; cbn [foldM]; auto. rewrite <- (kmp_fill_same key k next n i). step (kmp_fill_count key (k, (next, n)) i). destruct a as [k1 s1]. cbn [snd]. apply IH.
Qed.
Lemma kmp_make_same : forall key, rmap snd (kmp_make_count key) = kmp_make key.
Proof.
  intros key. unfold kmp_make_count, kmp_make. step (lset (repeat 0%Z (length key + 1)) 0 (-1)%Z). rewrite <- (kmp_fills_same key (seq 0 (length key)) 0). step (foldM (kmp_fill_count key) (seq 0 (length key)) (0, (a, (-1)%Z))).
Qed.
Lemma falling_upd : forall next i v, falling next -> (-1 <= v < Z.of_nat i)%Z -> falling (upd next i v).
Proof. intros next i v F Hv j Hj. rewrite upd_length in Hj. rewrite nth_upd. destruct (Nat.eqb_spec j i) as [->|]; cbn [andb]; [|auto]. destruct (i <? length next); auto. Qed.
Lemma kmp_fill_cost : forall key k next n i k' next' n', falling next -> length next = length key + 1 -> (-1 <= n < Z.of_nat i)%Z -> kmp_fill_count key (k, (next, n)) i = Ok (k', (next', n')) ->
  falling next' /\ length next' = length key + 1 /\ (0 <= n' < Z.of_nat (i + 1))%Z /\ (Z.of_nat k' <= Z.of_nat k + n - n' + 2 + (if (i + 1 <? length key)%nat then 1 else 0))%Z.
Proof.
  intros key k next n i k' next' n' F Ln Hn. unfold kmp_fill_count. destruct (lget key i); cbn [bind]; try discriminate. intros E. apply bind_Ok_inv in E. destruct E as ([k1 p] & E1 & E).
  apply kmp_back_cost in E1; auto; [|lia]. destruct E1 as (B & C). apply bind_Ok_inv in E. destruct E as ([k2 v] & Ev & E). cbn [fst snd] in E.
  assert (V : (-1 <= v < Z.of_nat (i + 1))%Z /\ k2 = k1 + (if i + 1 <? length key then 1 else 0)).
  { destruct (i + 1 <? length key).
    - destruct (lget key (i + 1)); cbn [bind] in Ev; try discriminate. destruct (lget key (Z.to_nat (p + 1))); cbn [bind] in Ev; try discriminate. destruct (_ =? _)%N.
      + destruct (Nat.lt_ge_cases (Z.to_nat (p + 1)) (length next)) as [L|L]; [|rewrite (proj2 (lget_UB _ _ _)) in Ev by lia; discriminate].
        rewrite (lget_nth _ next _ 0%Z) in Ev by auto. cbn [bind] in Ev. injection Ev as <- <-. specialize (F _ L). lia.
      + injection Ev as <- <-. lia.
    - injection Ev as <- <-. lia. }
  destruct V as (V & ->). unfold lset in E. destruct (i + 1 <? length next); cbn [bind] in E; [|discriminate]. injection E as <- <- <-. split; [apply falling_upd; auto|]. split; [now rewrite upd_length|]. split; [lia|].
  destruct (p =? -1)%Z; destruct (i + 1 <? length key); lia.
Qed.
Lemma kmp_fills_cost : forall key j k next n, j <= length key -> foldM (kmp_fill_count key) (seq 0 j) (0, (upd (repeat 0%Z (length key + 1)) 0 (-1)%Z, (-1)%Z)) = Ok (k, (next, n)) ->
  falling next /\ length next = length key + 1 /\ (-1 <= n < Z.of_nat j)%Z /\ (j = 0 \/ (0 <= n)%Z) /\ (Z.of_nat k <= 2 * Z.of_nat j - 1 - n + Z.of_nat (Nat.min j (length key - 1)))%Z.
Proof.
  intros key. induction j as [|j IH]; intros k next n Hj.
  - cbn [seq foldM]. intros E. injection E as <- <- <-. split; [|rewrite upd_length, repeat_length; lia]. intros x Hx. rewrite upd_length, repeat_length in Hx. rewrite nth_upd, repeat_length, (proj2 (Nat.ltb_lt _ _)) by lia. rewrite andb_true_r.
    destruct (Nat.eqb_spec x 0); [lia|]. rewrite nth_repeat. lia.
  - rewrite seq_S, foldM_app. intros E. apply bind_Ok_inv in E. destruct E as ([k1 [next1 n1]] & E1 & E). apply IH in E1; [|lia]. destruct E1 as (F & L & B & _ & C). cbn [foldM plus] in E. apply bind_Ok_inv in E. destruct E as (s & E2 & E). injection E as ->.
    apply kmp_fill_cost in E2; auto. destruct E2 as (F' & L' & B' & C'). split; auto. split; auto. split; [lia|]. split; [lia|]. destruct (Nat.ltb_spec (j + 1) (length key)); lia.
Qed.
Lemma kmp_make_cost : forall key k next, kmp_make_count key = Ok (k, next) -> falling next /\ length next = length key + 1 /\ k <= 3 * length key - 2.
Proof.
  intros key k next E. unfold kmp_make_count in E. rewrite lset_Ok in E by (rewrite repeat_length; lia). cbn [bind] in E. apply bind_Ok_inv in E. destruct E as ([k1 [n1 p]] & E1 & E). injection E as <- <-. cbn [fst snd] in *.
  apply kmp_fills_cost in E1; auto. destruct E1 as (F & L & B & P & C). split; auto. split; auto. destruct key; [cbn [length] in *; lia|]. cbn [length] in *. lia.
Qed.
Lemma kmp_make_any : forall key, exists next, kmp_make key = Ok next.
Proof. intros [|a key]; [now eexists|]. destruct (kmp_make_ok (a :: key)) as (next & E & _); [cbn; lia|]. eauto. Qed.
Lemma kmp_cost : forall beyond text key, exists k1, rmap fst (kmp_make_count key) = Ok k1 /\ k1 <= 3 * length key - 2 /\
  forall l, match_kmp beyond text key = Ok l -> exists k2, match_kmp_count beyond text key = Ok (k1, (k2, l)) /\ k2 <= 2 * length text.
Proof.
  intros beyond text key. destruct (kmp_make_any key) as (next & Em). unfold match_kmp, match_kmp_count. rewrite Em. rewrite <- kmp_make_same in Em. destruct (kmp_make_count key) as [[k1 nx]| | |] eqn:E; try discriminate. injection Em as ->.
  destruct (kmp_make_cost _ _ _ E) as (F & L & C). exists k1. split; auto. split; auto. intros l. cbn [bind fst snd]. intros El. rewrite <- (kmp_loop_same _ _ _ _ _ _ 0) in El.
  destruct (kmp_loop_count (key ++ beyond) (length key) next text 0 0 0) as [[k2 l2]| | |] eqn:E2; try discriminate. injection El as <-. exists k2. split; auto. apply kmp_loop_cost in E2; auto; lia.
Qed.

(** ** Bm *)
Lemma bm_back_same : forall key text cnt pos k, rmap snd (bm_back_count key text cnt pos k) = bm_back key text cnt pos.
Proof. intros key text. induction cnt as [|j IH]; intros pos k; cbn [bm_back_count bm_back]; auto. step (lget key j). destruct pos; auto. step (lget text pos). destruct (_ =? _)%N; auto. Qed.
Lemma bm_back_cost : forall key text cnt pos k k' b, bm_back_count key text cnt pos k = Ok (k', b) -> k + Nat.min 1 cnt <= k' <= k + cnt.
Proof.
  intros key text. induction cnt as [|j IH]; intros pos k k' b; cbn [bm_back_count]; intros E; [injection E as <- <-; lia|]. destruct (lget key j); cbn [bind] in E; try discriminate. destruct pos; try discriminate. destruct (lget text pos); cbn [bind] in E; try discriminate.
  destruct (_ =? _)%N; [apply IH in E; lia|]. injection E as <- <-. lia.
Qed.
Lemma bm_loop_same : forall key text skip fuel i w k, rmap snd (bm_loop_count fuel key text skip i w k) = bm_loop fuel key text skip i.
Proof.
  intros key text skip. induction fuel as [|fuel IH]; intros i w k; cbn [bm_loop_count bm_loop]; destruct (_ <=? i); auto. rewrite <- (bm_back_same key text _ _ k). step (bm_back_count key text (length key) (S i) k).
  step (lget text i). step (char_index a0). step (lget skip a1). rewrite <- (IH (i + a2) (S w) (fst a)). step (bm_loop_count fuel key text skip (i + a2) (S w) (fst a)). destruct a3 as [[w' k'] l]. reflexivity.
Qed.
(** w windows, k comparisons, from a window ending at i *)
Lemma bm_loop_cost : forall key text skip, key <> [] -> (forall s, In s skip -> 1 <= s <= length key) -> forall fuel i w k w' k' l, bm_loop_count fuel key text skip i w k = Ok (w', k', l) ->
  w <= w' <= w + (length text - i) /\ length text - i <= length key * (w' - w) /\ k + (w' - w) <= k' <= k + length key * (w' - w).
Proof.
  intros key text skip Nk Hs. assert (L1 : 1 <= length key) by (destruct key; [congruence|simpl; lia]). induction fuel as [|fuel IH]; intros i w k w' k' l; cbn [bm_loop_count]; destruct (Nat.leb_spec (length text) i); intros E; try (injection E as <- <- <-; nia); [discriminate|].
  apply bind_Ok_inv in E. destruct E as ([k1 b] & E1 & E). apply bm_back_cost in E1. destruct (lget text i); cbn [bind] in E; try discriminate. destruct (char_index a); cbn [bind] in E; try discriminate.
  apply bind_Ok_inv in E. destruct E as (s & Es & E). assert (Is : 1 <= s <= length key). { apply Hs. unfold lget in Es. destruct (nth_error skip a0) eqn:En; [|discriminate]. injection Es as <-. eapply nth_error_In; eauto. }
  apply bind_Ok_inv in E. destruct E as ([[w2 k2] l2] & E2 & E). cbn [fst snd] in *. injection E as <- <- <-. apply IH in E2. destruct E2 as (A & B & C). assert (Ew : w2 - w = S (w2 - S w)) by lia. rewrite Ew. nia.
Qed.
Lemma table_range : forall (key : list N) (f : nat -> nat) lo hi l t0 t, (forall s, In s t0 -> lo <= s <= hi) -> (forall i, In i l -> lo <= f i <= hi) ->
  foldM (fun tb i => do c <- lget key i; do x <- char_index c; lset tb x (f i)) l t0 = Ok t -> forall s, In s t -> lo <= s <= hi.
Proof.
  intros key f lo hi. induction l as [|i l IH]; intros t0 t H0 Hf E; [injection E as <-; auto|]. cbn [foldM] in E. apply bind_Ok_inv in E. destruct E as (t1 & E1 & E). apply (IH t1 t); auto; [|intros; apply Hf; now right].
  destruct (lget key i); cbn [bind] in E1; try discriminate. destruct (char_index a); cbn [bind] in E1; try discriminate. apply lset_inv in E1. destruct E1 as (_ & ->). intros s Hs. apply In_nth with (d := 0) in Hs. destruct Hs as (j & Lj & <-). rewrite upd_length in Lj. rewrite nth_upd. destruct (_ && _); [apply Hf; now left|apply H0; now apply nth_In].
Qed.
Lemma bm_cost : forall text key l, match_bm text key = Ok l -> exists w k, match_bm_count text key = Ok (w, k, l) /\ w <= length text + 1 - length key /\ length text + 1 - length key <= length key * w /\ w <= k <= length key * w.
Proof.
  intros text key l E. unfold match_bm in E. unfold match_bm_count. apply bind_Ok_inv in E. destruct E as (skip & Es & E). rewrite Es. cbn [bind]. unfold bm_make in Es. destruct (Nat.eqb_spec (length key) 0) as [|L]; [discriminate|].
  assert (R : forall s, In s skip -> 1 <= s <= length key).
  { apply (table_range key (fun i => length key - i - 1) 1 (length key) _ _ _) with (3 := Es); [intros s Hs; apply repeat_spec in Hs; lia|]. intros i Hi. apply in_seq in Hi. lia. }
  rewrite <- (bm_loop_same key text skip _ _ 0 0) in E. destruct (bm_loop_count (S (length text)) key text skip (length key - 1) 0 0) as [[[w k] l']| | |] eqn:Ec; try discriminate. injection E as ->. exists w, k. split; auto.
  apply bm_loop_cost in Ec; [|intros ->; auto|auto]. rewrite !Nat.sub_0_r in Ec. lia.
Qed.

(** ** SundayQS and SundayMS *)
Lemma sunday_pos_same : forall text i pats pos k, rmap snd (sunday_pos_count pats text i pos k) = sunday_pos pats text i pos.
Proof. intros text i. induction pats as [|p pats IH]; intros pos k; cbn [sunday_pos_count sunday_pos]; auto. step (lget text (i + fst p)). destruct (same_char _ _); auto. Qed.
Lemma sunday_pos_cost : forall text i pats pos k k' p, sunday_pos_count pats text i pos k = Ok (k', p) -> k + Nat.min 1 (length pats) <= k' <= k + length pats /\ pos <= p <= pos + length pats.
Proof.
  intros text i. induction pats as [|p pats IH]; intros pos k k' q; cbn [sunday_pos_count length]; intros E; [injection E as <- <-; lia|]. destruct (lget text (i + fst p)); cbn [bind] in E; try discriminate.
  destruct (same_char _ _); [apply IH in E; lia|]. injection E as <- <-. lia.
Qed.
Lemma sunday_loop_same : forall m pats td1 shift text fuel i w k, rmap snd (sunday_loop_count fuel m pats td1 shift text i w k) = sunday_loop fuel m pats td1 shift text i.
Proof.
  intros m pats td1 shift text. induction fuel as [|fuel IH]; intros i w k; cbn [sunday_loop_count sunday_loop]; destruct (_ <=? _)%N; auto. rewrite <- (sunday_pos_same text i pats 0 k). step (sunday_pos_count pats text i 0 k). destruct (i + m =? length text); auto.
  step (lget text (i + m)). step (lget td1 (N.to_nat a0)). step (shift (snd a)). rewrite <- (IH (i + Nat.max a1 a2) (S w) (fst a)). step (sunday_loop_count fuel m pats td1 shift text (i + Nat.max a1 a2) (S w) (fst a)). destruct a3 as [[w' k'] l]. reflexivity.
Qed.
Lemma sunday_loop_cost : forall m pats td1 shift text, length pats = m -> (N.of_nat (length text) < 2 ^ 64)%N -> m <= length text -> (forall s, In s td1 -> 1 <= s <= m + 1) -> (forall p d, shift p = Ok d -> d <= m + 1) ->
  forall fuel i w k w' k' l, sunday_loop_count fuel m pats td1 shift text i w k = Ok (w', k', l) ->
  w <= w' <= w + (length text + 1 - m - i) /\ length text + 1 - m - i <= (m + 1) * (w' - w) /\ k + Nat.min 1 m * (w' - w) <= k' <= k + m * (w' - w).
Proof.
  intros m pats td1 shift text Lp Lt Hm H1 H2. assert (Ew : wsub (N.of_nat (length text)) (N.of_nat m) = N.of_nat (length text - m)).
  { unfold wsub. replace (N.of_nat (length text) + 2 ^ 64 - N.of_nat m)%N with (N.of_nat (length text - m) + 1 * 2 ^ 64)%N by lia. rewrite N.mod_add by discriminate. apply N.mod_small. lia. }
  induction fuel as [|fuel IH]; intros i w k w' k' l; cbn [sunday_loop_count]; rewrite Ew; destruct (N.leb_spec (N.of_nat i) (N.of_nat (length text - m))) as [Hi|Hi]; intros E; try (injection E as <- <- <-; nia); [discriminate|].
  apply bind_Ok_inv in E. destruct E as ([k1 p] & E1 & E). apply sunday_pos_cost in E1. rewrite Lp in E1. apply bind_Ok_inv in E. destruct E as ([[w2 k2] l2] & E2 & E). cbn [fst snd] in *. injection E as <- <- _.
  destruct (Nat.eqb_spec (i + m) (length text)) as [Ee|Ne].
  - injection E2 as <- <- _. replace (S w - w) with 1 by lia. nia.
  - destruct (lget text (i + m)); cbn [bind] in E2; try discriminate. apply bind_Ok_inv in E2. destruct E2 as (d1 & D1 & E2). apply bind_Ok_inv in E2. destruct E2 as (d2 & D2 & E2). apply H2 in D2.
    assert (Is : 1 <= d1 <= m + 1). { apply H1. unfold lget in D1. destruct (nth_error td1 (N.to_nat a)) eqn:En; [|discriminate]. injection D1 as <-. eapply nth_error_In; eauto. }
    apply IH in E2. destruct E2 as (A & B & C). assert (Ews : w2 - w = S (w2 - S w)) by lia. rewrite Ews. nia.
Qed.
Lemma match_shift_le : forall key pats pos fuel l l', match_shift fuel key pats pos l = Ok l' -> l' <= Nat.max l (length key).
Proof.
  intros key pats pos. induction fuel as [|fuel IH]; intros l l'; cbn [match_shift]; destruct (Nat.ltb_spec l (length key)); intros E; try discriminate; try (injection E as <-; lia).
  destruct (shift_fits key pats l pos) as [b| | |]; cbn [bind] in E; try discriminate. destruct b; [injection E as <-; lia|]. apply IH in E. lia.
Qed.
Lemma improve_shift_le : forall key pats pos fuel l l', improve_shift fuel key pats pos l = Ok l' -> l' <= Nat.max l (length key).
Proof.
  intros key pats pos. induction fuel as [|fuel IH]; intros l l'; cbn [improve_shift]; destruct (Nat.ltb_spec l (length key)); intros E; try discriminate; try (injection E as <-; lia).
  destruct (lget pats pos) as [p| | |]; cbn [bind] in E; try discriminate. destruct (fst p <? l); [injection E as <-; lia|]. destruct (lget key (fst p - l)) as [c| | |]; cbn [bind] in E; try discriminate. destruct (negb _); [injection E as <-; lia|].
  apply bind_Ok_inv in E. destruct E as (l1 & E1 & E). apply match_shift_le in E1. apply IH in E. lia.
Qed.
Lemma shifts_le : forall (g : nat -> nat) (f : nat -> nat -> res nat) b, (forall p l l', f p l = Ok l' -> l <= b -> l' <= b) -> forall ps t t', (forall x, In x t -> x <= b) ->
  foldM (fun t p => do l <- lget t (g p); do l <- f p l; lset t p l) ps t = Ok t' -> forall x, In x t' -> x <= b.
Proof.
  intros g f b Hf. induction ps as [|p ps IH]; intros t t' Ht E; [injection E as <-; auto|]. cbn [foldM] in E. apply bind_Ok_inv in E. destruct E as (t1 & E1 & E). apply (IH t1 t'); auto.
  apply bind_Ok_inv in E1. destruct E1 as (l & El & E1). apply bind_Ok_inv in E1. destruct E1 as (l' & El' & E1). apply lset_inv in E1. destruct E1 as (_ & ->).
  assert (l <= b). { apply Ht. unfold lget in El. destruct (nth_error t (g p)) eqn:En; [|discriminate]. injection El as <-. eapply nth_error_In; eauto. }
  apply Hf in El'; auto. intros s Hs. apply In_nth with (d := 0) in Hs. destruct Hs as (j & Lj & <-). rewrite upd_length in Lj. rewrite nth_upd. destruct (_ && _); auto. apply Ht. now apply nth_In.
Qed.
Lemma ms_make_le : forall key pats t, ms_make key pats = Ok t -> forall x, In x t -> x <= length key + 1.
Proof.
  intros key pats t E. unfold ms_make in E. apply bind_Ok_inv in E. destruct E as (t0 & E0 & E). apply bind_Ok_inv in E. destruct E as (t1 & E1 & E).
  refine (shifts_le (fun p => p) (fun p l => improve_shift (S (length key)) key pats p l) (length key + 1) _ _ t1 t _ E); [intros p l l' Hl; apply improve_shift_le in Hl; lia|].
  refine (shifts_le (fun p => p - 1) (fun p l => match_shift (S (length key)) key pats p l) (length key + 1) _ _ t0 t1 _ E1); [intros p l l' Hl; apply match_shift_le in Hl; lia|].
  apply lset_inv in E0. destruct E0 as (_ & ->). intros s Hs. apply In_nth with (d := 0) in Hs. destruct Hs as (j & Lj & <-). rewrite nth_upd. destruct (_ && _); [lia|]. rewrite nth_repeat. lia.
Qed.
Lemma sunday_cost : forall text key pats td1 shift l, (N.of_nat (length text) < 2 ^ 64)%N -> (N.of_nat (length key) < 2 ^ 64)%N -> sunday_make key = Ok pats -> qs_make key = Ok td1 -> (forall p d, shift p = Ok d -> d <= length key + 1) ->
  sunday_loop (S (length text)) (length key) pats td1 shift text 0 = Ok l -> exists w k, sunday_loop_count (S (length text)) (length key) pats td1 shift text 0 0 0 = Ok (w, k, l) /\
    length key <= length text /\ w <= length text + 1 - length key /\ length text + 1 - length key <= (length key + 1) * w /\ k <= length key * w /\ (key <> [] -> w <= k).
Proof.
  intros text key pats td1 shift l Ht Hk Ep Et Hs E. destruct (Nat.lt_ge_cases (length text) (length key)) as [L|L].
  { rewrite short_ub in E; auto; try apply sunday_pos_total; [discriminate|lia]. }
  assert (Lp : length pats = length key).
  { unfold sunday_make in Ep. apply bind_Ok_inv in Ep. destruct Ep as (ms & _ & Ep). injection Ep as <-. rewrite (Permutation.Permutation_length (sort_pats_perm _ _)), combine_length, seq_length. lia. }
  assert (R : forall s, In s td1 -> 1 <= s <= length key + 1).
  { apply (table_range key (fun i => length key - i) 1 (length key + 1) _ _ _) with (3 := Et); [intros s Hs'; apply repeat_spec in Hs'; lia|]. intros i Hi. apply in_seq in Hi. lia. }
  rewrite <- (sunday_loop_same _ _ _ _ _ _ _ 0 0) in E. destruct (sunday_loop_count (S (length text)) (length key) pats td1 shift text 0 0 0) as [[[w k] l']| | |] eqn:Ec; try discriminate. injection E as ->. exists w, k. split; auto.
  apply sunday_loop_cost in Ec; auto. rewrite !Nat.sub_0_r in Ec. split; auto. split; [lia|]. split; [lia|]. split; [lia|]. intros Nk. destruct key; [congruence|]. cbn [length Nat.min] in *. lia.
Qed.
Lemma qs_cost : forall text key l, (N.of_nat (length text) < 2 ^ 64)%N -> (N.of_nat (length key) < 2 ^ 64)%N -> match_qs text key = Ok l -> exists w k, match_qs_count text key = Ok (w, k, l) /\
  length key <= length text /\ w <= length text + 1 - length key /\ length text + 1 - length key <= (length key + 1) * w /\ k <= length key * w /\ (key <> [] -> w <= k).
Proof.
  intros text key l Ht Hk E. unfold match_qs in E. unfold match_qs_count. apply bind_Ok_inv in E. destruct E as (pats & Ep & E). apply bind_Ok_inv in E. destruct E as (td1 & Et & E). rewrite Ep, Et. cbn [bind].
  apply sunday_cost; auto. intros p d D. injection D as <-. lia.
Qed.
Lemma ms_cost : forall text key l, (N.of_nat (length text) < 2 ^ 64)%N -> (N.of_nat (length key) < 2 ^ 64)%N -> match_ms text key = Ok l -> exists w k, match_ms_count text key = Ok (w, k, l) /\
  length key <= length text /\ w <= length text + 1 - length key /\ length text + 1 - length key <= (length key + 1) * w /\ k <= length key * w /\ (key <> [] -> w <= k).
Proof.
  intros text key l Ht Hk E. unfold match_ms in E. unfold match_ms_count. apply bind_Ok_inv in E. destruct E as (pats & Ep & E). apply bind_Ok_inv in E. destruct E as (td1 & Et & E). apply bind_Ok_inv in E. destruct E as (td2 & E2 & E). rewrite Ep, Et. cbn [bind]. rewrite E2. cbn [bind].
  apply sunday_cost; auto. intros p d D. apply (ms_make_le _ _ _ E2). unfold lget in D. destruct (nth_error td2 p) eqn:En; [|discriminate]. injection D as <-. eapply nth_error_In; eauto.
Qed.

(** ** Bom *)
Lemma bom_back_same : forall beyond o text cnt pos state k, rmap snd (bom_back_count beyond o text cnt pos state k) = bom_back beyond o text cnt pos state.
Proof. intros beyond o text. induction cnt as [|cnt IH]; intros pos state k; cbn [bom_back_count bom_back]; auto. destruct pos; auto. step (lget text pos). step (fo_image beyond o state a). destruct a0; auto. Qed.
Lemma bom_back_cost : forall beyond o text cnt pos state k k' r, bom_back_count beyond o text cnt pos state k = Ok (k', r) -> r <= cnt /\ k' = k + (cnt - r) + (if r =? 0 then 0 else 1).
Proof.
  intros beyond o text. induction cnt as [|cnt IH]; intros pos state k k' r; cbn [bom_back_count]; intros E; [injection E as <- <-; cbn; lia|]. destruct pos; [discriminate|]. destruct (lget text pos); cbn [bind] in E; try discriminate. destruct (fo_image beyond o state a); cbn [bind] in E; try discriminate.
  destruct a0; [|injection E as <- <-; cbn [Nat.eqb]; lia]. apply IH in E. destruct E as (L & ->). destruct (r =? 0); lia.
Qed.
Lemma bom_loop_same : forall beyond o m text fuel i w k, rmap snd (bom_loop_count fuel beyond o m text i w k) = bom_loop fuel beyond o m text i.
Proof.
  intros beyond o m text. induction fuel as [|fuel IH]; intros i w k; cbn [bom_loop_count bom_loop]; destruct (i <? length text); auto. rewrite <- (bom_back_same beyond o text m (S i) 0 k). step (bom_back_count beyond o text m (S i) 0 k). destruct a as [k1 r]. cbn [fst snd]. destruct (r =? 0); auto.
  rewrite <- (IH (i + 1) (S w) k1). step (bom_loop_count fuel beyond o m text (i + 1) (S w) k1).
Qed.
Lemma bom_loop_cost : forall beyond o m text, 1 <= m -> forall fuel i w k w' k' l, bom_loop_count fuel beyond o m text i w k = Ok (w', k', l) ->
  w <= w' <= w + (length text - i) /\ length text - i <= m * (w' - w) /\ k + (w' - w) <= k' <= k + m * (w' - w).
Proof.
  intros beyond o m text Hm. induction fuel as [|fuel IH]; intros i w k w' k' l; cbn [bom_loop_count]; destruct (Nat.ltb_spec i (length text)); intros E; try (injection E as <- <- <-; nia); [discriminate|].
  apply bind_Ok_inv in E. destruct E as ([k1 r] & E1 & E). apply bom_back_cost in E1. cbn [fst snd] in E. destruct (Nat.eqb_spec r 0) as [Hr|Hr].
  - apply bind_Ok_inv in E. destruct E as ([[w2 k2] l2] & E2 & E). cbn [fst snd] in E. injection E as <- <- <-. apply IH in E2. destruct E2 as (A & B & C). assert (Ew : w2 - w = S (w2 - S w)) by lia. rewrite Ew. nia.
  - apply IH in E. destruct E as (A & B & C). assert (Ew : w' - w = S (w' - S w)) by lia. rewrite Ew. nia.
Qed.
Lemma bom_cost : forall fuel beyond text key l, match_bom fuel beyond text key = Ok l -> exists w k, match_bom_count fuel beyond text key = Ok (w, k, l) /\ w <= length text + 1 - length key /\ length text + 1 - length key <= length key * w /\ w <= k <= length key * w.
Proof.
  intros fuel beyond text key l E. unfold match_bom in E. unfold match_bom_count. apply bind_Ok_inv in E. destruct E as (o & Eo & E). rewrite Eo. cbn [bind].
  assert (L : 1 <= length key) by (destruct key; [rewrite build_empty in Eo; discriminate|simpl; lia]).
  rewrite <- (bom_loop_same beyond o (length key) text _ _ 0 0) in E. destruct (bom_loop_count (S (length text)) beyond o (length key) text (length key - 1) 0 0) as [[[w k] l']| | |] eqn:Ec; try discriminate. injection E as ->. exists w, k. split; auto.
  apply bom_loop_cost in Ec; auto. rewrite !Nat.sub_0_r in Ec. lia.
Qed.
