(** Optimality of the level split, and which levels are merged. *)
From Coq Require Import List NArith Lia Bool Arith Sorted.
From Verif Require Import Base Spec CalcModel CalcProof CalcProof2 SplitSpec.
Import ListNotations.
Ltac Zify.zify_post_hook ::= idtac.
Local Open Scope nat_scope.

Lemma overhead_eq : forall n, additional_bit_size_of_rank n = rank_overhead n.
Proof.
  intros n. unfold additional_bit_size_of_rank, rank_overhead. replace (5 * n + 764)%N with (n + (n + 191) * 4)%N by lia. rewrite N.div_add by lia. lia.
Qed.
Definition cur (s : list N) (c : N) (t i : nat) : N := (nth i s 0 + c * N.of_nat (i - t) + rank_overhead c)%N.
Lemma inner_opt : forall s c t n i st, i + n <= length s -> exists st', foldM (dp_inner s c t) (seq i n) st = Ok st' /\ (fst st' <= fst st)%N /\ (forall j, i <= j < i + n -> (fst st' <= cur s c t j)%N) /\ (st' = st \/ i <= snd st' < i + n /\ fst st' = cur s c t (snd st')).
Proof.
  intros s c t n. induction n as [|n IH]; intros i [ms mp] H.
  - exists (ms, mp). split; [reflexivity|]. split; [lia|]. split; [intros; lia|now left].
  - cbn [seq foldM]. unfold dp_inner at 1. rewrite (lget_nth _ s i 0%N) by lia. cbn [bind]. rewrite overhead_eq. fold (cur s c t i). destruct (N.ltb_spec (cur s c t i) ms) as [L|L]; cbn [bind].
    + destruct (IH (S i) (cur s c t i, i) ltac:(lia)) as (st' & E & A & B & C). exists st'. split; [exact E|]. cbn [fst snd] in *. split; [lia|]. split.
      * intros j Hj. destruct (Nat.eq_dec j i) as [->|]; [lia|]. apply B. lia.
      * right. destruct C as [->|(C1 & C2)]; cbn [fst snd]; [split; [lia|reflexivity]|]. split; [lia|auto].
    + destruct (IH (S i) (ms, mp) ltac:(lia)) as (st' & E & A & B & C). exists st'. split; [exact E|]. cbn [fst snd] in *. split; [lia|]. split.
      * intros j Hj. destruct (Nat.eq_dec j i) as [->|]; [lia|]. apply B. lia.
      * destruct C as [->|(C1 & C2)]; [now left|right]. split; [lia|auto].
Qed.

Section Dp.
Variable l : list N.
Variable cf : list nat.
Variable m : nat.
Hypothesis Hcf : length cf = m + 1.
Hypothesis Hc : forall t, t <= m -> N.of_nat (nth t cf 0) = wider l t.
Hypothesis Hb : forall t, t <= m -> (wider l t * N.of_nat (m + 1 - t) < 2 ^ 64 - 1)%N.

Definition opt (t0 : nat) (st : list N * list nat * list nat) : Prop :=
  let '(s, _, b) := st in forall t, t0 <= t -> t <= m ->
    (forall ws, ws <> [] -> parts_of (m + 1 - t) ws -> (nth t s 0%N <= split_cost l t ws)%N) /\
    nth t s 0%N = (if t + nth t b 0 =? m + 1 then (wider l t * N.of_nat (nth t b 0%nat))%N else cur s (wider l t) t (t + nth t b 0)).
Lemma sum_cons : forall w ws, list_sum_nat (w :: ws) = w + list_sum_nat ws.
Proof. reflexivity. Qed.
Lemma outer_opt : forall t st st', t <= m -> dp_inv m (S t) st -> opt (S t) st -> dp_outer cf m st t = Ok st' -> opt t st'.
Proof.
  intros t [[s lv] b] st' Ht (Ls & Ll & Lb & I) O E. unfold dp_outer in E. rewrite (lget_nth _ cf t 0) in E by lia. cbn [bind] in E. rewrite (Hc t Ht) in E. set (c := wider l t) in *.
  destruct (inner_opt s c t (m - t) (t + 1) ((2 ^ 64 - 1)%N, m) ltac:(lia)) as ([ms mp] & E1 & A & B & C). rewrite E1 in E. cbn [bind] in E. cbn [fst snd] in *.
  assert (Step : forall v k, (v <= c * N.of_nat (m + 1 - t))%N -> (v <= ms)%N -> 1 <= k -> t + k <= m + 1 -> v = (if t + k =? m + 1 then (c * N.of_nat k)%N else cur s c t (t + k)) -> opt t (upd s t v, lv, upd b t k)).
  { intros v k V1 V2 K1 K2 V3 u Hu1 Hu2. unfold cur. rewrite !nth_upd. rewrite Ls, Lb. rewrite (proj2 (Nat.ltb_lt t (m + 1))) by lia. rewrite !andb_true_r. destruct (Nat.eqb_spec u t) as [->|Nu].
    - destruct (Nat.eqb_spec (t + k) t); [lia|]. split; [|rewrite V3; reflexivity].
      intros ws Nw (P1 & P2). destruct ws as [|w ws]; [congruence|]. rewrite sum_cons in P2. inversion P1 as [|? ? W1 P1']; subst. cbn [split_cost]. fold c. destruct ws as [|w' ws].
      + cbn [list_sum_nat fold_right] in P2. replace w with (m + 1 - t) by lia. rewrite N.add_0_r. exact V1.
      + assert (1 <= list_sum_nat (w' :: ws)) by (rewrite sum_cons; inversion P1'; subst; lia).
        pose proof (B (t + w) ltac:(lia)) as Bw. unfold cur in Bw. replace (t + w - t) with w in Bw by lia. destruct (O (t + w) ltac:(lia) ltac:(lia)) as (Ow & _). specialize (Ow (w' :: ws) ltac:(discriminate)). assert (parts_of (m + 1 - (t + w)) (w' :: ws)) as Pw by (split; [auto|lia]). specialize (Ow Pw). cbn [split_cost] in Ow |- *. lia.
    - destruct (I u ltac:(lia) ltac:(lia)) as (I1 & I2 & _). destruct (Nat.eqb_spec (u + nth u b 0) t) as [Eu|_]; [lia|]. apply O; lia. }
  destruct (N.ltb_spec ms (c * N.of_nat (m + 1 - t))) as [L|L].
  - destruct C as [C|(C1 & C2)]; [injection C as -> ->; specialize (Hb t Ht); fold c in Hb; lia|].
    rewrite lset_Ok in E by lia. cbn [bind] in E. rewrite (lget_nth _ lv mp 0) in E by lia. cbn [bind] in E. rewrite lset_Ok in E by lia. cbn [bind] in E. rewrite lset_Ok in E by lia. cbn [bind] in E. injection E as <-.
    apply (Step ms (mp - t)); try lia. destruct (Nat.eqb_spec (t + (mp - t)) (m + 1)); [lia|]. rewrite C2. f_equal. lia.
  - do 3 (rewrite lset_Ok in E by lia; cbn [bind] in E). injection E as <-.
    apply (Step (c * N.of_nat (m + 1 - t))%N (m + 1 - t)); try lia. rewrite (proj2 (Nat.eqb_eq _ _)) by lia. reflexivity.
Qed.
Lemma tables_opt : Forall (fun c => (N.of_nat c < 2 ^ 64)%N) cf -> forall st, dp_tables cf m = Ok st -> opt 0 st.
Proof.
  intros HF st.
  assert (G : forall n st0, n <= m + 1 -> dp_inv m n st0 -> opt n st0 -> foldM (dp_outer cf m) (rev (seq 0 n)) st0 = Ok st -> opt 0 st).
  { induction n as [|n IH]; intros st0 Hn Hi Ho E; [injection E as <-; auto|]. rewrite seq_S, rev_app_distr in E. change (rev [0 + n] ++ rev (seq 0 n)) with (n :: rev (seq 0 n)) in E. cbn [foldM] in E. destruct (dp_outer_inv cf m n st0 ltac:(lia) Hcf HF Hi) as (st' & E' & Hi'). rewrite E' in E. cbn [bind] in E. apply (IH st'); auto; [lia|]. eapply outer_opt; eauto. lia. }
  unfold dp_tables. apply G; auto; [|unfold opt; intros; lia]. unfold dp_inv. rewrite !repeat_length. do 3 (split; [auto|]). intros. lia.
Qed.

Fixpoint walk_list (n t : nat) (b : list nat) : list nat := match n with O => [] | S n => nth t b 0 :: walk_list n (t + nth t b 0) b end.
Lemma skipn_S : forall (z : list nat) k, k < length z -> skipn k z = nth k z 0 :: skipn (S k) z.
Proof. induction z as [|a z IH]; intros [|k] H; cbn [length skipn nth] in *; try lia; auto. apply IH. lia. Qed.
Lemma upd_split : forall (z : list nat) k v, k < length z -> upd z k v = firstn k z ++ v :: skipn (S k) z.
Proof. induction z as [|a z IH]; intros [|k] v H; cbn [length] in H; try lia; [reflexivity|]. cbn [upd firstn skipn app]. f_equal. apply IH. lia. Qed.
Lemma walk_cost : forall s lv b, dp_inv m 0 (s, lv, b) -> opt 0 (s, lv, b) -> forall n t k bk, t <= m -> nth t lv 0 = n -> length bk = k + n ->
  split_walk n k t b bk = Ok (firstn k bk ++ walk_list n t b) /\ walk_list n t b <> [] /\ parts_of (m + 1 - t) (walk_list n t b) /\ split_cost l t (walk_list n t b) = nth t s 0%N.
Proof.
  intros s lv b (Ls & Ll & Lb & I) O. induction n as [|n IH]; intros t k bk Ht En Lk; destruct (I t ltac:(lia) Ht) as (I1 & I2 & I3).
  - destruct (Nat.eqb_spec (t + nth t b 0) (m + 1)) in I3; lia.
  - cbn [split_walk walk_list]. rewrite (lget_nth _ b t 0) by lia. cbn [bind]. rewrite lset_Ok by lia. cbn [bind]. destruct (O t ltac:(lia) Ht) as (_ & O2).
    assert (Fu : firstn (S k) (upd bk k (nth t b 0)) = firstn k bk ++ [nth t b 0]).
    { rewrite upd_split by lia. replace (S k) with (length (firstn k bk) + 1) at 1 by (rewrite firstn_length; lia). rewrite firstn_app_2. reflexivity. }
    destruct (Nat.eqb_spec (t + nth t b 0) (m + 1)) as [Em|Em].
    + assert (n = 0) by lia. subst n. cbn [split_walk walk_list]. split; [f_equal; rewrite <- Fu; rewrite firstn_all2; [reflexivity|rewrite upd_length; lia]|]. split; [discriminate|]. split; [split; [repeat constructor; auto|rewrite sum_cons; cbn [list_sum_nat fold_right]; lia]|]. cbn [split_cost]. rewrite O2. lia.
    + destruct (IH (t + nth t b 0) (S k) (upd bk k (nth t b 0)) ltac:(lia) ltac:(lia) ltac:(rewrite upd_length; lia)) as (E & Nn & (P1 & P2) & Cs).
      split; [rewrite E; f_equal; rewrite Fu, <- app_assoc; reflexivity|]. split; [discriminate|]. split; [split; [constructor; auto|rewrite sum_cons; lia]|].
      destruct (walk_list n (t + nth t b 0) b) as [|w ws] eqn:Ew; [congruence|]. cbn [split_cost] in Cs |- *. rewrite Cs, O2. unfold cur. replace (t + nth t b 0 - t) with (nth t b 0) by lia. lia.
Qed.
End Dp.

(** ** merging *)
Fixpoint bounds (p : nat) (ws : list nat) : list nat := match ws with [] => [] | w :: ws => (p + w) :: bounds (p + w) ws end.
Lemma bounds_cuts : forall ws p, ws <> [] -> bounds p ws = cuts p ws ++ [p + list_sum_nat ws].
Proof.
  induction ws as [|w ws IH]; intros p H; [congruence|]. cbn [bounds cuts]. destruct ws as [|w' ws].
  - cbn [bounds app]. f_equal. rewrite sum_cons. cbn [list_sum_nat fold_right]. lia.
  - rewrite IH by discriminate. rewrite (sum_cons w). cbn [app]. do 3 f_equal. lia.
Qed.
Lemma bounds_pos : forall ws p x, Forall (fun w => 1 <= w) ws -> In x (bounds p ws) -> p < x.
Proof. induction ws as [|w ws IH]; intros p x F H; [destruct H|]. inversion F; subst. cbn [bounds] in H. destruct H as [<-|H]; [lia|]. apply IH in H; auto. lia. Qed.
Lemma bounds_max : forall ws p x, In x (bounds p ws) -> x <= p + list_sum_nat ws.
Proof. induction ws as [|w ws IH]; intros p x H; [destruct H|]. cbn [bounds] in H. rewrite sum_cons. destruct H as [<-|H]; [lia|]. apply IH in H. lia. Qed.
Lemma cuts_lt : forall ws p x, Forall (fun w => 1 <= w) ws -> In x (cuts p ws) -> p < x < p + list_sum_nat ws.
Proof.
  induction ws as [|w ws IH]; intros p x F H; [destruct H|]. inversion F; subst. cbn [cuts] in H. destruct ws as [|w' ws]; [destruct H|]. rewrite sum_cons. inversion H3; subst. destruct H as [<-|H]; [rewrite sum_cons; lia|]. apply IH in H; auto. lia.
Qed.
Lemma sep_bounds : forall bk sep p sep' q, foldM sep_step bk (sep, p) = Ok (sep', q) -> forall i, nth i sep' false = true <-> nth i sep false = true \/ In i (bounds p bk).
Proof.
  induction bk as [|w bk IH]; intros sep p sep' q E i; cbn [foldM bounds] in *.
  - injection E as <- <-. split; [auto|]. intros [H|[]]; auto.
  - unfold sep_step at 1 in E. apply bind_Ok_inv in E. destruct E as ((s1, p1) & E1 & E). apply bind_Ok_inv in E1. destruct E1 as (s2 & E1 & E2). injection E2 as <- <-. rewrite (IH _ _ _ _ E i). clear IH E.
    destruct (Nat.lt_ge_cases (p + w) (length sep)) as [L|L]; [|unfold lset in E1; rewrite (proj2 (Nat.ltb_ge _ _)) in E1 by auto; discriminate]. rewrite lset_Ok in E1 by auto. injection E1 as <-. rewrite nth_upd. rewrite (proj2 (Nat.ltb_lt _ _)) by auto. rewrite andb_true_r. cbn [In]. destruct (Nat.eqb_spec i (p + w)) as [->|Ni]; [intuition|]. intuition congruence.
Qed.
Lemma widths_bounds : forall sep i last x, last <= i -> In x (bounds last (widths_of_seps sep i last)) <-> i <= x /\ nth (x - i) sep false = true.
Proof.
  induction sep as [|a sep IH]; intros i last x H; cbn [widths_of_seps].
  - split; [intros []|]. intros (_ & E). destruct (x - i); discriminate.
  - destruct a.
    + cbn [bounds In]. replace (last + (i - last)) with i by lia. rewrite IH by lia. split.
      * intros [<-|(L & E)]; [rewrite Nat.sub_diag; auto|]. split; [lia|]. replace (x - i) with (S (x - S i)) by lia. exact E.
      * intros (L & E). destruct (Nat.eq_dec i x) as [->|]; [now left|right]. split; [lia|]. replace (x - i) with (S (x - S i)) in E by lia. exact E.
    + rewrite IH by lia. split.
      * intros (L & E). split; [lia|]. replace (x - i) with (S (x - S i)) by lia. exact E.
      * intros (L & E). destruct (Nat.eq_dec i x) as [->|]; [rewrite Nat.sub_diag in E; discriminate|]. split; [lia|]. replace (x - i) with (S (x - S i)) in E by lia. exact E.
Qed.
(** the separators that are removed form a prefix of the queue *)
Lemma remove_prefix : forall pq sep mx sep', remove_seps pq (count_true sep) mx sep = Ok sep' -> mx < count_true sep ->
  exists p1 p2, pq = p1 ++ p2 /\ (forall i, nth i sep' false = true <-> nth i sep false = true /\ ~ In i p1) /\ (count_true sep' = mx \/ p2 = [] /\ mx < count_true sep').
Proof.
  induction pq as [|a pq IH]; intros sep mx sep' E L; cbn [remove_seps] in E; rewrite (proj2 (Nat.ltb_lt _ _)) in E by auto.
  - injection E as <-. exists [], []. split; auto. split; [intros; cbn [In]; tauto|]. right. auto.
  - apply bind_Ok_inv in E. destruct E as (x & Ex & E). destruct (Nat.lt_ge_cases a (length sep)) as [La|La]; [|assert (X : lget sep a = UB) by (apply lget_UB; auto); rewrite X in Ex; discriminate]. rewrite (lget_nth _ sep a false) in Ex by auto. injection Ex as <-. destruct (nth a sep false) eqn:Ea.
    + rewrite lset_Ok in E by auto. cbn [bind] in E. pose proof (count_true_upd sep a false La) as U. rewrite Ea in U. replace (count_true sep - 1) with (count_true (upd sep a false)) in E by lia.
      assert (Up : forall i, nth i (upd sep a false) false = true <-> nth i sep false = true /\ i <> a).
      { intros i. rewrite nth_upd. rewrite (proj2 (Nat.ltb_lt _ _)) by auto. rewrite andb_true_r. destruct (Nat.eqb_spec i a) as [->|]; [split; [discriminate|tauto]|tauto]. }
      destruct (Nat.lt_ge_cases mx (count_true (upd sep a false))) as [L'|L'].
      * destruct (IH _ _ _ E L') as (p1 & p2 & -> & H & D). exists (a :: p1), p2. split; auto. split; [|auto]. intros i. rewrite H, Up. cbn [In]. intuition congruence.
      * assert (Es : sep' = upd sep a false) by (destruct pq; cbn [remove_seps] in E; rewrite (proj2 (Nat.ltb_ge _ _)) in E by lia; congruence). subst sep'. exists [a], pq. split; auto. split; [|left; lia]. intros i. rewrite Up. cbn [In]. intuition congruence.
    + destruct (IH _ _ _ E L) as (p1 & p2 & -> & H & D). exists (a :: p1), p2. split; auto. split; [|auto]. intros i. rewrite H. cbn [In]. split; [intros (A & B); split; auto; intros [->|I]; [congruence|auto]|]. intros (A & B). split; auto.
Qed.

(** ** the queue is ordered by the number of values of that length *)
Definition le_fst (a b : N * nat) : Prop := (fst a <= fst b)%N.
Lemma insert_sorted : forall x l, StronglySorted le_fst l -> StronglySorted le_fst (insert_gain x l).
Proof.
  intros x. induction l as [|y l IH]; intros H; cbn [insert_gain]; [repeat constructor|]. apply StronglySorted_inv in H. destruct H as (H & F). destruct (N.leb_spec (fst x) (fst y)) as [L|L].
  - constructor; [constructor; auto|]. constructor; [exact L|]. rewrite Forall_forall in *. intros z Hz. specialize (F z Hz). unfold le_fst in *. lia.
  - constructor; auto. rewrite Forall_forall in *. intros z Hz. apply insert_gain_In in Hz. destruct Hz as [->|Hz]; [unfold le_fst; lia|auto].
Qed.
Lemma gains_sorted : forall cf m, StronglySorted le_fst (gains cf m).
Proof. intros cf m. unfold gains. induction (map _ _) as [|x q IH]; cbn [fold_right]; [constructor|]. now apply insert_sorted. Qed.
Lemma gains_fst : forall cf m g i, In (g, i) (gains cf m) -> g = wsub (N.of_nat (nth (i - 1) cf 0)) (N.of_nat (nth i cf 0)).
Proof.
  intros cf m g i. unfold gains. induction (seq 1 (m - 1)) as [|x q IH]; cbn [map fold_right]; [intros []|]. intros H. apply insert_gain_In in H. destruct H as [H|H]; [|auto]. injection H as -> ->. reflexivity.
Qed.
Lemma wider_exactly : forall l i, 1 <= i -> count_if (fun v => i - 1 <? bits_needed v) l = count_if (fun v => i <? bits_needed v) l + exactly l i.
Proof.
  intros l i Hi. unfold exactly, count_if. induction l as [|v l IH]; [reflexivity|]. cbn [filter]. destruct (Nat.ltb_spec (i - 1) (bits_needed v)); destruct (Nat.ltb_spec i (bits_needed v)); destruct (Nat.eqb_spec (bits_needed v) i); cbn [length]; lia.
Qed.
Lemma count_le : forall p (l : list N), count_if p l <= length l.
Proof. intros p l. unfold count_if. induction l as [|v l IH]; [auto|]. cbn [filter]. destruct (p v); cbn [length]; lia. Qed.
Lemma sorted_split : forall (p1 p2 : list (N * nat)) a b, StronglySorted le_fst (p1 ++ p2) -> In a p1 -> In b p2 -> (fst a <= fst b)%N.
Proof.
  induction p1 as [|x p1 IH]; intros p2 a b H Ha Hb; [destruct Ha|]. cbn [app] in H. apply StronglySorted_inv in H. destruct H as (H & F). destruct Ha as [->|Ha]; [|eapply IH; eauto]. rewrite Forall_forall in F. apply F. apply in_or_app. auto.
Qed.

Theorem split_best : forall l mx, l <> [] -> Forall (fun v => (v < 2 ^ 63)%N) l -> (N.of_nat (length l) < 2 ^ 57)%N -> 2 <= mx ->
  exists best r, best_split l best /\ split_positions_tolerant l mx = Ok (Some r) /\ (length best <= mx -> r = best) /\ (mx < length best -> merged l mx best r).
Proof.
  intros l mx Hl HF Hn Hmx. destruct (split_positions_tolerant_ok l mx Hl HF Hn Hmx) as (r0 & Er0 & R1 & R2 & R3).
  destruct (split_prefix l Hl HF Hn) as (cf & s & lv & b & E & L & H1 & E2 & I). destruct (cummulative_frequency_list_spec l HF) as (cf' & E' & _ & C). assert (cf' = cf) by congruence. subst cf'. clear E'.
  set (m := length cf - 1) in *. assert (Hcf : length cf = m + 1) by (unfold m; lia).
  assert (Hc : forall t, t <= m -> N.of_nat (nth t cf 0) = wider l t) by (intros t Ht; unfold wider; rewrite C by lia; reflexivity).
  assert (M63 : max_bits l <= 63).
  { clear - HF. unfold max_bits. induction l as [|v l IH]; cbn [map fold_right]; [lia|]. inversion HF; subst. specialize (IH H2). assert (bits_needed v <= 63) by (apply bits_needed_le; [auto|lia]). lia. }
  assert (Hw : forall t, (wider l t < 2 ^ 57)%N) by (intros t; unfold wider; pose proof (count_le (fun v => t <? bits_needed v) l); lia).
  assert (Hb : forall t, t <= m -> (wider l t * N.of_nat (m + 1 - t) < 2 ^ 64 - 1)%N).
  { intros t Ht. apply N.le_lt_trans with (2 ^ 57 * 63)%N; [|reflexivity]. apply N.mul_le_mono; [pose proof (Hw t); lia|lia]. }
  assert (FC : Forall (fun c => (N.of_nat c < 2 ^ 64)%N) cf).
  { apply Forall_forall. intros c Ic. apply (In_nth _ _ 0) in Ic. destruct Ic as (k & Hk & <-). rewrite Hc by lia. apply N.lt_trans with (2 ^ 57)%N; [apply Hw|reflexivity]. }
  pose proof (tables_opt l cf m Hcf Hc Hb FC _ E2) as O. pose proof I as (Ls & Ll & Lb & I').
  destruct (walk_cost l cf m Hcf Hc Hb s lv b I O (nth 0 lv 0) 0 0 (repeat 0 (nth 0 lv 0)) ltac:(lia) eq_refl ltac:(now rewrite repeat_length)) as (Ew & Nw & Pw & Cw). cbn [firstn app] in Ew. set (best := walk_list (nth 0 lv 0) 0 b) in *. rewrite Nat.sub_0_r in Pw. rewrite <- Hcf, L in Pw.
  assert (Lbest : forall n t, length (walk_list n t b) = n) by (induction n; intros; cbn [walk_list length]; auto).
  exists best, r0. split; [|split; [exact Er0|]].
  - split; auto. intros ws Hws. rewrite Cw. apply O; try lia; [intros ->; destruct Hws as (_ & Hs); cbn [list_sum_nat fold_right] in Hs; lia|]. rewrite Nat.sub_0_r, <- Hcf, L. exact Hws.
  - unfold split_positions_tolerant, split_positions_gen in Er0. destruct l as [|a l'] eqn:El; [congruence|]. rewrite <- El in *. rewrite E in Er0. cbn [bind] in Er0. fold m in Er0. rewrite E2 in Er0. cbn [bind] in Er0. rewrite (lget_nth _ lv 0 0) in Er0 by lia. cbn [bind] in Er0. rewrite Ew in Er0. cbn [bind] in Er0. unfold merge_levels in Er0.
    split; intros Hlen; [rewrite (proj2 (Nat.ltb_ge _ _)) in Er0 by auto; cbn [bind] in Er0; congruence|]. rewrite (proj2 (Nat.ltb_lt _ _)) in Er0 by auto.
    destruct Pw as (Pw1 & Pw2). destruct (sep_fold best (repeat false (length cf + 1)) 0 (max_bits l)) as (sep & Es & S1 & S2 & S3 & S4); auto; [rewrite repeat_length; lia|intros; now rewrite nth_repeat|].
    rewrite Es in Er0. cbn [bind fst] in Er0. pose proof (sep_bounds _ _ _ _ _ Es) as Sb. assert (C0 : forall k, count_true (repeat false k) = 0) by (induction k; auto). rewrite C0 in S2. cbn [plus] in S2. rewrite <- S2 in Er0. apply bind_Ok_inv in Er0. destruct Er0 as (r1 & Er1 & Er0). injection Er0 as ->. apply bind_Ok_inv in Er1. destruct Er1 as (sep' & Er & Er1). injection Er1 as <-.
    destruct (remove_prefix _ _ _ _ Er ltac:(lia)) as (p1 & p2 & Ep & Hp & Dp).
    assert (Inpq : forall i, In i (p1 ++ p2) <-> 1 <= i < m) by (intros i; rewrite <- Ep; apply gains_In).
    assert (Bb : forall i, nth i sep false = true <-> In i (bounds 0 best)). { intros i. rewrite Sb, nth_repeat. intuition congruence. }
    rewrite widths_length in R1. assert (Cnt : count_true sep' = mx) by (destruct Dp as [|(_ & C')]; lia).
    set (r := widths_of_seps sep' 0 0) in *.
    assert (Br : forall i, In i (bounds 0 r) <-> In i (bounds 0 best) /\ ~ In i p1). { intros i. unfold r. rewrite widths_bounds by lia. rewrite Nat.sub_0_r, Hp, Bb. intuition lia. }
    assert (Nr : r <> []) by (intros C1; assert (length r = 0) by (now rewrite C1); unfold r in H; rewrite widths_length in H; lia).
    assert (Cb : forall i, In i (cuts 0 best) <-> In i (bounds 0 best) /\ i < max_bits l).
    { intros i. rewrite bounds_cuts by auto. rewrite in_app_iff. cbn [In plus]. split; [intros H; split; [auto|]; pose proof (cuts_lt best 0 i Pw1 H); lia|]. intros ([H|[H|[]]] & H'); [auto|lia]. }
    assert (Cr : forall i, In i (cuts 0 r) <-> In i (bounds 0 r) /\ i < max_bits l).
    { intros i. rewrite (bounds_cuts r) by auto. rewrite in_app_iff. cbn [In plus]. split; [intros H; split; [auto|]; pose proof (cuts_lt r 0 i R2 H); lia|]. intros ([H|[H|[]]] & H'); [auto|lia]. }
    split; [unfold r; now rewrite widths_length|]. split; [split; auto|]. split.
    + intros i Hi. apply Cr in Hi. destruct Hi as (Hi & Li). apply Br in Hi. apply Cb. tauto.
    + intros i j Hi Hi' Hj. apply Cb in Hi. destruct Hi as (Bi & Li). assert (Pi : In i p1). { destruct (in_dec Nat.eq_dec i p1) as [|Np]; auto. exfalso. apply Hi'. apply Cr. split; auto. apply Br. auto. }
      apply Cr in Hj. destruct Hj as (Bj & Lj). apply Br in Bj. destruct Bj as (Bj & Npj). destruct (Nat.eq_dec (j + 1) (max_bits l)) as [|Nj]; [now left|right].
      assert (Pj : In j p2). { pose proof (bounds_pos best 0 j Pw1 Bj). assert (J : In j (p1 ++ p2)) by (apply Inpq; lia). apply in_app_or in J. destruct J; [contradiction|auto]. }
      apply map_eq_app in Ep. destruct Ep as (q1 & q2 & Eq & Q1 & Q2). rewrite <- Q1 in Pi. rewrite <- Q2 in Pj. apply in_map_iff in Pi. destruct Pi as ([gi i'] & Ei & Ii). apply in_map_iff in Pj. destruct Pj as ([gj j'] & Ej & Ij). cbn [snd] in Ei, Ej. subst i' j'.
      pose proof (gains_sorted cf m) as Gs. rewrite Eq in Gs. pose proof (sorted_split _ _ _ _ Gs Ii Ij) as Le. cbn [fst] in Le.
      assert (Gv : forall g k, In (g, k) (gains cf m) -> g = N.of_nat (exactly l k)).
      { intros g k Hg. assert (Rk : 1 <= k < m) by (apply (proj1 (gains_In cf m k)); apply in_map_iff; exists (g, k); auto). apply gains_fst in Hg. rewrite Hg. unfold wsub. rewrite (C (k - 1)) by lia. rewrite (C k) by lia. rewrite wider_exactly by lia.
        pose proof (count_le (fun v => k <? bits_needed v) l). pose proof (count_le (fun v => bits_needed v =? k) l). fold (exactly l k) in H0. set (A := count_if (fun v => k <? bits_needed v) l) in *. replace (N.of_nat (A + exactly l k) + 2 ^ 64 - N.of_nat A)%N with (N.of_nat (exactly l k) + 1 * 2 ^ 64)%N by lia. rewrite N.mod_add by discriminate. apply N.mod_small. apply N.le_lt_trans with (N.of_nat (length l)); [lia|]. apply N.lt_trans with (2 ^ 57)%N; [auto|reflexivity]. }
      rewrite (Gv gi i) in Le by (rewrite Eq; apply in_or_app; auto). rewrite (Gv gj j) in Le by (rewrite Eq; apply in_or_app; auto). lia.
Qed.
