(** Proofs about the DAC level split (CalcModel.v, second half) *)
From Coq Require Import List NArith ZArith Lia Bool Arith.
From Coq Require Import ZifyBool ZifyNat ZifyN.
From Verif Require Import Base Spec CalcModel CalcProof.
Import ListNotations.

(** ** Dynamic programming tables *)
Lemma dp_inner_loop : forall s cft t n i st, i + n <= length s ->
  exists st', foldM (dp_inner s cft t) (seq i n) st = Ok st' /\
    (snd st' = snd st /\ fst st' = fst st \/ i <= snd st' < i + n).
Proof.
  intros s cft t n. induction n; intros i [ms mp] H; simpl.
  - eexists. split; eauto.
  - rewrite (lget_nth _ s i 0%N) by lia. cbn [bind].
    destruct (_ <? ms)%N; cbn [bind].
    + destruct (IHn (S i) ((nth i s 0 + cft * N.of_nat (i - t) + additional_bit_size_of_rank cft)%N, i)) as (st' & E & H'); [lia|].
      exists st'. split; auto. simpl in H'. right. lia.
    + destruct (IHn (S i) (ms, mp)) as (st' & E & H'); [lia|]. exists st'. split; auto. simpl in H'. lia.
Qed.

Definition dp_inv (m t0 : nat) (st : list N * list nat * list nat) : Prop :=
  let '(s, l, b) := st in
  length s = m + 1 /\ length l = m + 1 /\ length b = m + 1 /\
  forall t, t0 <= t -> t <= m ->
    1 <= nth t b 0 /\ t + nth t b 0 <= m + 1 /\
    (nth t l 0 = if t + nth t b 0 =? m + 1 then 1 else nth (t + nth t b 0) l 0 + 1).

Lemma dp_outer_inv : forall cf m t st, t <= m -> length cf = m + 1 ->
  Forall (fun c => (N.of_nat c < 2 ^ 64)%N) cf ->
  dp_inv m (S t) st -> exists st', dp_outer cf m st t = Ok st' /\ dp_inv m t st'.
Proof.
  intros cf m t [[s l] b] Ht Hcf HF (Ls & Ll & Lb & H). unfold dp_outer.
  rewrite (lget_nth _ cf t 0) by lia. cbn [bind].
  assert (Hc : (N.of_nat (nth t cf O) < 2 ^ 64)%N).
  { rewrite Forall_forall in HF. apply HF. apply nth_In. lia. }
  set (cft := N.of_nat (nth t cf 0)) in *. clearbody cft.
  destruct (dp_inner_loop s cft t (m - t) (t + 1) ((2 ^ 64 - 1)%N, m)) as ([ms mp] & E & R); [lia|].
  rewrite E. cbn [bind]. simpl in R.
  destruct (N.ltb_spec ms (cft * N.of_nat (m + 1 - t))).
  - assert (Hmp : t < mp <= m).
    { destruct R as [[R1 R2]|R]; [|lia]. subst mp. destruct (Nat.eq_dec t m); [|lia]. subst t.
      replace (m + 1 - m) with 1 in H0 by lia. subst ms. change (2 ^ 64)%N with 18446744073709551616%N in *. lia. }
    rewrite lset_Ok by lia. cbn [bind]. rewrite (lget_nth _ l mp 0) by lia. cbn [bind].
    rewrite lset_Ok by lia. cbn [bind]. rewrite lset_Ok by lia. cbn [bind].
    eexists. split; [reflexivity|]. unfold dp_inv. rewrite !upd_length. do 3 (split; [auto|]).
    intros u Hu1 Hu2. rewrite !nth_upd.
    destruct (Nat.eqb_spec u t).
    + subst u. rewrite Lb, Ll. assert (X : t <? m + 1 = true) by lia. rewrite X. simpl.
      split; [lia|]. split; [lia|]. destruct (Nat.eqb_spec (t + (mp - t)) (m + 1)); [lia|].
      destruct (Nat.eqb_spec (t + (mp - t)) t); [lia|]. simpl. f_equal. f_equal. lia.
    + simpl. destruct (H u) as (A & B & C); try lia. split; auto. split; auto. rewrite C.
      destruct (Nat.eqb_spec (u + nth u b 0) t); [lia|]. auto.
  - rewrite lset_Ok by lia. cbn [bind].
    rewrite lset_Ok by lia. cbn [bind]. rewrite lset_Ok by lia. cbn [bind].
    eexists. split; [reflexivity|]. unfold dp_inv. rewrite !upd_length. do 3 (split; [auto|]).
    intros u Hu1 Hu2. rewrite !nth_upd.
    destruct (Nat.eqb_spec u t).
    + subst u. rewrite Lb, Ll. assert (X : t <? m + 1 = true) by lia. rewrite X. simpl.
      split; [lia|]. split; [lia|]. destruct (Nat.eqb_spec (t + (m + 1 - t)) (m + 1)); lia.
    + simpl. destruct (H u) as (A & B & C); try lia. split; auto. split; auto. rewrite C.
      destruct (Nat.eqb_spec (u + nth u b 0) t); [lia|]. auto.
Qed.

Lemma dp_tables_inv : forall cf m, length cf = m + 1 -> Forall (fun c => (N.of_nat c < 2 ^ 64)%N) cf ->
  exists st, dp_tables cf m = Ok st /\ dp_inv m 0 st.
Proof.
  intros cf m Hcf HF.
  assert (G : forall n st, n <= m + 1 -> dp_inv m n st -> exists st', foldM (dp_outer cf m) (rev (seq 0 n)) st = Ok st' /\ dp_inv m 0 st').
  { induction n; intros st Hn Hi.
    - exists st. auto.
    - rewrite seq_S, rev_app_distr. change (rev [0 + n] ++ rev (seq 0 n)) with (n :: rev (seq 0 n)). cbn [foldM].
      destruct (dp_outer_inv cf m n st) as (st' & E & Hi'); auto; try lia. rewrite E. cbn [bind].
      apply IHn; auto. lia. }
  apply G; auto. unfold dp_inv. rewrite !repeat_length. do 3 (split; [auto|]). intros. lia.
Qed.

Lemma walk_ok : forall m s l b, dp_inv m 0 (s, l, b) -> forall n t k bk, t <= m -> nth t l 0 = n -> length bk = k + n ->
  exists bk', split_walk n k t b bk = Ok bk' /\ length bk' = length bk /\
    firstn k bk' = firstn k bk /\ list_sum_nat (skipn k bk') = m + 1 - t /\ Forall (fun w => 1 <= w) (skipn k bk').
Proof.
  intros m s l b (Ls & Ll & Lb & H). induction n; intros t k bk Ht Hn Hbk.
  - exfalso. destruct (H t) as (A & B & C); try lia. destruct (_ =? _) in C; lia.
  - destruct (H t) as (A & B & C); try lia. cbn [split_walk]. rewrite (lget_nth _ b t 0) by lia. cbn [bind].
    rewrite lset_Ok by lia. cbn [bind].
    set (bk1 := upd bk k (nth t b 0)).
    assert (L1 : length bk1 = length bk) by (unfold bk1; now rewrite upd_length).
    assert (N1 : nth k bk1 0 = nth t b 0).
    { unfold bk1. rewrite nth_upd. rewrite Nat.eqb_refl. assert (X : k <? length bk = true) by lia. rewrite X. auto. }
    assert (F1 : firstn k bk1 = firstn k bk).
    { apply nth_ext_len with (d := 0).
      - rewrite !firstn_length. lia.
      - intros i Hi. rewrite firstn_length in Hi. unfold bk1.
        rewrite <- (firstn_skipn k (upd bk k (nth t b 0))) in *.
        assert (Q : forall (z : list nat) j, j < k -> nth j (firstn k z) 0 = nth j z 0).
        { clear. induction k; intros; [lia|]. destruct z; simpl; auto. destruct j; auto. apply IHk. lia. }
        rewrite firstn_skipn. rewrite !Q by lia. rewrite nth_upd. destruct (Nat.eqb_spec i k); [lia|]. reflexivity. }
    assert (SS : forall z : list nat, k < length z -> skipn k z = nth k z 0 :: skipn (S k) z).
    { clear. induction k; intros; destruct z; simpl in *; try lia; auto. rewrite IHk by lia. reflexivity. }
    destruct (Nat.eqb_spec (t + nth t b 0) (m + 1)).
    + assert (n = 0) by lia. subst n. simpl. exists bk1. split; auto. split; auto. split; auto.
      rewrite SS by lia. rewrite skipn_all2 by lia. rewrite N1. split; [simpl; lia|]. auto.
    + destruct (IHn (t + nth t b 0) (S k) bk1) as (bk' & E & L' & F' & S' & P'); try lia.
      exists bk'. split; auto. split; [lia|].
      assert (K : forall z : list nat, k < length z -> firstn (S k) z = firstn k z ++ [nth k z 0]).
      { clear. induction k; intros; destruct z; simpl in *; try lia; auto. rewrite <- IHk by lia. reflexivity. }
      rewrite !K in F' by lia. apply app_inj_tail in F'. destruct F' as [F'1 F'2].
      split; [congruence|]. rewrite SS by lia. rewrite F'2, N1. split.
      * change (list_sum_nat (nth t b 0 :: skipn (S k) bk')) with (nth t b 0 + list_sum_nat (skipn (S k) bk')). lia.
      * constructor; auto.
Qed.

(** ** Merging *)
Lemma count_true_cons : forall x l, count_true (x :: l) = (if x then 1 else 0) + count_true l.
Proof. intros. unfold count_true. simpl. destruct x; auto. Qed.

Lemma count_true_upd : forall l i v, i < length l ->
  count_true (upd l i v) + (if nth i l false then 1 else 0) = count_true l + (if v then 1 else 0).
Proof.
  induction l; intros i v H; simpl in H; [lia|]. destruct i; cbn [upd nth].
  - rewrite !count_true_cons. destruct a, v; lia.
  - rewrite !count_true_cons. specialize (IHl i v). destruct a; lia.
Qed.

Lemma count_true_positions : forall l, count_true l = length (filter (fun i => nth i l false) (seq 0 (length l))).
Proof.
  induction l using rev_ind; auto.
  unfold count_true in *. rewrite filter_app, app_length, IHl. rewrite app_length. simpl (length [x]).
  rewrite Nat.add_1_r, seq_S, filter_app, app_length. f_equal.
  - f_equal. apply filter_ext_in. intros a Ha. apply in_seq in Ha. rewrite app_nth1 by lia. auto.
  - simpl. rewrite app_nth2, Nat.sub_diag by lia. simpl. destruct x; auto.
Qed.

Lemma sep_fold : forall bk sep p M, length sep = M + 1 -> p + list_sum_nat bk = M -> Forall (fun w => 1 <= w) bk ->
  (forall i, p < i -> nth i sep false = false) ->
  exists sep', foldM sep_step bk (sep, p) = Ok (sep', M) /\ length sep' = M + 1 /\
    count_true sep' = count_true sep + length bk /\ nth 0 sep' false = nth 0 sep false /\
    (1 <= length bk -> nth M sep' false = true).
Proof.
  induction bk; intros sep p M HL HS HF Hz.
  - simpl in *. exists sep. rewrite Nat.add_0_r in *. subst p. repeat split; auto. lia.
  - inversion HF as [|a' bk' Ha HF' ]; clear HF. cbn [foldM]. unfold sep_step at 1. change (p + (a + list_sum_nat bk) = M) in HS.
    rewrite lset_Ok by lia. cbn [bind].
    destruct (IHbk (upd sep (p + a) true) (p + a) M) as (sep' & E & L & C & Z & T).
    + now rewrite upd_length.
    + unfold list_sum_nat in *. lia.
    + auto.
    + intros i Hi. rewrite nth_upd. destruct (Nat.eqb_spec i (p + a)); [lia|]. simpl. apply Hz. lia.
    + exists sep'. split; auto. split; auto. pose proof (count_true_upd sep (p + a) true) as U.
      rewrite Hz in U by lia. split; [simpl length; lia|]. split.
      * rewrite Z, nth_upd. destruct (Nat.eqb_spec 0 (p + a)); [lia|]. reflexivity.
      * intros _. destruct bk as [|y bk]; [|apply T; simpl; lia].
        simpl in E. injection E as E1 E2. subst sep'. simpl in *.
        replace M with (p + a) by lia. rewrite nth_upd, Nat.eqb_refl.
        assert (X : p + a <? length sep = true) by lia. rewrite X. auto.
Qed.

Lemma remove_seps_ok : forall pq sep num mx M, length sep = M + 1 -> num = count_true sep ->
  (forall i, In i pq -> 1 <= i < M) -> 
  exists sep', remove_seps pq num mx sep = Ok sep' /\ length sep' = M + 1 /\
    nth 0 sep' false = nth 0 sep false /\ nth M sep' false = nth M sep false /\
    (forall i, nth i sep false = false -> nth i sep' false = false) /\
    (count_true sep' <= mx \/ forall i, In i pq -> nth i sep' false = false).
Proof.
  induction pq; intros sep num mx M HL HN HP; cbn [remove_seps]; destruct (Nat.ltb_spec mx num).
  - exists sep. repeat split; auto. right. intros i [].
  - exists sep. repeat split; auto. left. lia.
  - specialize (HP a (or_introl eq_refl)) as Ha. rewrite (lget_nth _ sep a false) by lia. cbn [bind].
    destruct (nth a sep false) eqn:Ea.
    + rewrite lset_Ok by lia. cbn [bind].
      pose proof (count_true_upd sep a false) as U. rewrite Ea in U.
      destruct (IHpq (upd sep a false) (num - 1) mx M) as (sep' & E & L & Z & T & K & D).
      * now rewrite upd_length.
      * lia.
      * intros. apply HP. simpl; auto.
      * exists sep'. split; auto. split; auto. rewrite nth_upd in Z, T.
        destruct (Nat.eqb_spec 0 a); [lia|]. destruct (Nat.eqb_spec M a); [lia|]. simpl in Z, T.
        split; auto. split; auto. assert (K' : forall i, nth i sep false = false -> nth i sep' false = false).
        { intros i Hi. apply K. rewrite nth_upd. destruct (_ && _); auto. }
        split; auto. destruct D as [D|D]; auto. right. intros i [Hi|Hi]; auto. subst i.
        apply K. rewrite nth_upd, Nat.eqb_refl. assert (X : a <? length sep = true) by lia. rewrite X. auto.
    + destruct (IHpq sep num mx M) as (sep' & E & L & Z & T & K & D); auto.
      * intros. apply HP. simpl; auto.
      * exists sep'. split; auto. split; auto. split; auto. split; auto. split; auto.
        destruct D as [D|D]; auto. right. intros i [Hi|Hi]; auto. subst i. auto.
  - exists sep. repeat split; auto. left. lia.
Qed.

Lemma widths_length : forall sep i last, length (widths_of_seps sep i last) = count_true sep.
Proof. induction sep; intros; auto. rewrite count_true_cons. simpl. destruct a; simpl; auto. Qed.

Lemma widths_sum : forall sep i last, last <= i -> list_sum_nat (widths_of_seps (sep ++ [true]) i last) = i + length sep - last.
Proof.
  induction sep; intros i last H; simpl.
  - lia.
  - destruct a; simpl.
    + change (fold_right Nat.add 0) with list_sum_nat. rewrite IHsep by lia. lia.
    + rewrite IHsep by lia. lia.
Qed.

Lemma widths_pos : forall sep i last, last < i -> Forall (fun w => 1 <= w) (widths_of_seps sep i last).
Proof. induction sep; intros; simpl; auto. destruct a; [constructor; [lia|]|]; apply IHsep; lia. Qed.

Lemma merge_levels_ok : forall cf pq mx bk M, length cf = M -> 2 <= mx -> Forall (fun w => 1 <= w) bk -> list_sum_nat bk = M -> 1 <= length bk ->
  (forall i, In i pq -> 1 <= i < M) -> (forall i, 1 <= i -> i < M - 1 -> In i pq) ->
  exists r, merge_levels cf pq mx bk = Ok r /\ 1 <= length r <= mx /\ Forall (fun w => 1 <= w) r /\ list_sum_nat r = M.
Proof.
  intros cf pq mx bk M Hcf Hmx HF HS H1 HP HA. unfold merge_levels.
  destruct (Nat.ltb_spec mx (length bk)).
  2: { exists bk. repeat split; auto. }
  destruct (sep_fold bk (repeat false (length cf + 1)) 0 M) as (sep & E & L & C & Z & T); auto.
  { rewrite repeat_length. lia. }
  { intros. now rewrite nth_repeat. }
  rewrite E. cbn [bind fst].
  assert (C0 : count_true (repeat false (length cf + 1)) = 0).
  { clear. induction (length cf + 1); auto. }
  rewrite C0 in C. simpl in C. rewrite nth_repeat in Z.
  destruct (remove_seps_ok pq sep (length bk) mx M) as (sep' & E' & L' & Z' & T' & K' & D'); auto.
  rewrite E'. cbn [bind]. eexists. split; [reflexivity|].
  rewrite Z in Z'. rewrite T in T' by auto.
  assert (Dec : exists s1, sep' = s1 ++ [true] /\ length s1 = M).
  { exists (firstn M sep'). split.
    - rewrite <- (firstn_skipn M sep') at 1. f_equal.
      assert (length (skipn M sep') = 1) by (rewrite skipn_length; lia).
      assert (nth 0 (skipn M sep') false = true).
      { rewrite <- T'. rewrite <- (firstn_skipn M sep') at 2. rewrite app_nth2; rewrite firstn_length; [f_equal; lia|lia]. }
      destruct (skipn M sep') as [|x [|y z]]; simpl in *; try lia. subst. auto.
    - rewrite firstn_length. lia. }
  assert (HM : 1 <= M). { destruct bk; simpl in *; [lia|]. inversion HF; subst. lia. }
  split; [|split].
  - rewrite widths_length. split.
    + destruct Dec as (s1 & -> & _). unfold count_true. rewrite filter_app, app_length. simpl. lia.
    + destruct D' as [D'|D']; auto. eapply Nat.le_trans; [|exact Hmx].
      rewrite count_true_positions.
      apply (NoDup_incl_length (l := filter (fun i => nth i sep' false) (seq 0 (length sep'))) (l' := [M - 1; M])).
      * apply NoDup_filter, seq_NoDup.
      * intros i Hi. apply filter_In in Hi. destruct Hi as [Hi1 Hi2]. apply in_seq in Hi1.
        destruct (Nat.eq_dec i M); [subst; simpl; auto|]. destruct (Nat.eq_dec i (M - 1)); [subst; simpl; auto|].
        destruct (Nat.eq_dec i 0); [subst; congruence|]. rewrite D' in Hi2 by (apply HA; lia). discriminate.
  - destruct sep' as [|x sep']; simpl in *; [lia|]. subst x. apply widths_pos. lia.
  - destruct Dec as (s1 & -> & Hs1). rewrite widths_sum by lia. lia.
Qed.

Lemma insert_gain_In : forall x l y, In y (insert_gain x l) <-> y = x \/ In y l.
Proof.
  induction l; intros; simpl; [intuition|]. destruct (_ <=? _)%N; simpl; [intuition|]. rewrite IHl. intuition.
Qed.

Lemma gains_In : forall cf m i, In i (map snd (gains cf m)) <-> 1 <= i < m.
Proof.
  intros. unfold gains.
  assert (G : forall l i, In i (map snd (fold_right insert_gain [] (map (fun i => (wsub (N.of_nat (nth (i - 1) cf 0)) (N.of_nat (nth i cf 0)), i)) l))) <-> In i l).
  { induction l; intros j; simpl; [intuition|]. rewrite in_map_iff. split.
    - intros ([g y] & E & H). apply insert_gain_In in H. simpl in E. destruct H as [H|H].
      + injection H as -> ->. auto.
      + right. apply IHl. apply in_map_iff. exists (g, y). auto.
    - intros [H|H].
      + subst. eexists. rewrite insert_gain_In. split; [|left; reflexivity]. auto.
      + apply IHl in H. apply in_map_iff in H. destruct H as ([g y] & E & H). exists (g, y). rewrite insert_gain_In. auto. }
  rewrite G, in_seq. lia.
Qed.

(** A split of [n] bits into at most [mx] positive widths. *)
Definition valid_split (n mx : nat) (r : list nat) : Prop :=
  1 <= length r <= mx /\ Forall (fun w => 1 <= w) r /\ list_sum_nat r = n.

(** State at the entry of the walk of calc.hpp:118-126 *)
Lemma split_prefix : forall l, l <> [] -> Forall (fun v => (v < 2 ^ 63)%N) l -> (N.of_nat (length l) < 2 ^ 57)%N ->
  exists cf s lv b, cummulative_frequency_list l = Ok cf /\ length cf = max_bits l /\ 1 <= max_bits l /\
    dp_tables cf (length cf - 1) = Ok (s, lv, b) /\ dp_inv (length cf - 1) 0 (s, lv, b).
Proof.
  intros l Hl HF Hn. destruct (cummulative_frequency_list_spec l HF) as (cf & E & L & C).
  assert (H1 : 1 <= max_bits l).
  { destruct l as [|a l]; [congruence|]. pose proof (max_bits_In (a :: l) a (or_introl eq_refl)).
    pose proof (bits_needed_spec a). lia. }
  destruct (dp_tables_inv cf (length cf - 1)) as ([[s lv] b] & E2 & I).
  - lia.
  - apply Forall_forall. intros c Hc. apply (In_nth _ _ 0) in Hc. destruct Hc as (k & Hk & <-).
    rewrite C by lia. assert (count_if (fun v => k <? bits_needed v) l <= length l).
    { unfold count_if. clear. induction l; simpl; auto. destruct (_ <? _); simpl; lia. }
    change (2 ^ 57)%N with 144115188075855872%N in Hn. change (2 ^ 64)%N with 18446744073709551616%N. lia.
  - exists cf, s, lv, b. auto.
Qed.

Lemma split_positions_tolerant_ok : forall l mx, l <> [] -> Forall (fun v => (v < 2 ^ 63)%N) l ->
  (N.of_nat (length l) < 2 ^ 57)%N -> 2 <= mx ->
  exists r, split_positions_tolerant l mx = Ok (Some r) /\ 1 <= length r <= mx /\ Forall (fun w => 1 <= w) r /\
    list_sum_nat r = max_bits l.
Proof.
  intros l mx Hl HF Hn Hmx. destruct (split_prefix l Hl HF Hn) as (cf & s & lv & b & E & L & H1 & E2 & I).
  unfold split_positions_tolerant, split_positions_gen. destruct l as [|a l']; [congruence|].
  rewrite E. cbn [bind]. rewrite E2. cbn [bind].
  pose proof I as (Ls & Ll & Lb & H).
  rewrite (lget_nth _ lv 0 0) by lia. cbn [bind].
  destruct (walk_ok _ _ _ _ I (nth 0 lv 0) 0 0 (repeat 0 (nth 0 lv 0))) as (bk & E3 & L3 & _ & S3 & P3); auto; try lia.
  { now rewrite repeat_length. }
  rewrite E3. cbn [bind]. rewrite repeat_length in L3. simpl in S3, P3.
  destruct (merge_levels_ok cf (map snd (gains cf (length cf - 1))) mx bk (length cf)) as (r & E4 & R1 & R2 & R3); auto; try lia.
  - destruct bk; simpl in S3; [lia|simpl; lia].
  - intros i Hi. apply gains_In in Hi. lia.
  - intros i Hi1 Hi2. apply gains_In. lia.
  - rewrite E4. cbn [bind]. exists r. split; [reflexivity|]. split; [lia|]. split; [auto|lia].
Qed.

(** The code as written always runs one iteration too many. *)
Lemma walk_over : forall m s l b, dp_inv m 0 (s, l, b) -> forall n t k bk, t <= m -> nth t l 0 = n -> length bk = k + n ->
  split_walk (S n) k t b bk = UB.
Proof.
  intros m s l b (Ls & Ll & Lb & H). induction n; intros t k bk Ht Hn Hbk.
  - exfalso. destruct (H t) as (A & B & C); try lia. destruct (_ =? _) in C; lia.
  - destruct (H t) as (A & B & C); try lia. 
    remember (S n) as n1. cbn [split_walk]. subst n1. rewrite (lget_nth _ b t 0) by lia. cbn [bind].
    rewrite lset_Ok by lia. cbn [bind].
    destruct (Nat.eqb_spec (t + nth t b 0) (m + 1)).
    + assert (n = 0) by lia. subst n. cbn [split_walk].
      assert (X : lget b (t + nth t b 0) = UB) by (apply lget_UB; lia). rewrite X. reflexivity.
    + apply IHn; try lia. rewrite upd_length. lia.
Qed.

Lemma split_positions_UB : forall l mx, l <> [] -> Forall (fun v => (v < 2 ^ 63)%N) l ->
  (N.of_nat (length l) < 2 ^ 57)%N -> split_positions l mx = UB.
Proof.
  intros l mx Hl HF Hn. destruct (split_prefix l Hl HF Hn) as (cf & s & lv & b & E & L & H1 & E2 & I).
  unfold split_positions, split_positions_gen. destruct l as [|a l']; [congruence|].
  rewrite E. cbn [bind]. rewrite E2. cbn [bind].
  pose proof I as (Ls & Ll & Lb & H).
  rewrite (lget_nth _ lv 0 0) by lia. cbn [bind].
  rewrite (walk_over _ _ _ _ I) by (try lia; auto; now rewrite repeat_length). reflexivity.
Qed.
