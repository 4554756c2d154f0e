(** Two periods of a word, and the delay of Kmp. *)
From Coq Require Import List NArith ZArith Arith Bool Lia.
From Verif Require Import Base Spec PatternModel PatternProof KmpProof PatternCostModel PatternCost Spec33 DelayModel.
Import ListNotations.
Local Open Scope nat_scope.

(** ** the theorem of Fine and Wilf *)
Section Period.
Variable K : nat -> N.
Definition per (n p : nat) : Prop := forall i, i + p < n -> K i = K (i + p).
Lemma per_mul : forall n g t i, per n g -> i + t * g < n -> K i = K (i + t * g).
Proof.
  intros n g t. induction t as [|t IH]; intros i P H; [f_equal; lia|]. rewrite (IH i) by (auto; simpl in H; lia). rewrite (P (i + t * g)) by (simpl in H; lia). f_equal. simpl. lia.
Qed.
Lemma fine_wilf : forall s p q n, p + q <= s -> 1 <= p -> 1 <= q -> per n p -> per n q -> p + q <= n + Nat.gcd p q -> per n (Nat.gcd p q).
Proof.
  assert (Step : forall s, (forall p q n, p + q <= s -> 1 <= p -> 1 <= q -> per n p -> per n q -> p + q <= n + Nat.gcd p q -> per n (Nat.gcd p q)) ->
    forall p q n, p + q <= S s -> 1 <= q -> q < p -> per n p -> per n q -> p + q <= n + Nat.gcd p q -> per n (Nat.gcd p q)).
  { intros s IH p q n Hs Hq Hlt Pp Pq Hn.
    assert (G : Nat.gcd (p - q) q = Nat.gcd p q). { rewrite (Nat.gcd_comm p q), Nat.gcd_comm. rewrite (Nat.gcd_sub_diag_r q p) by lia. reflexivity. }
    assert (Gl : Nat.gcd p q <= p - q). { rewrite <- G. apply Nat.divide_pos_le; [lia|apply Nat.gcd_divide_l]. }
    assert (Gq : Nat.gcd p q <= q) by (apply Nat.divide_pos_le; [lia|apply Nat.gcd_divide_r]).
    assert (Short : per (n - q) (Nat.gcd p q)).
    { rewrite <- G. apply IH; try lia.
      - intros i Hi. rewrite (Pp i) by lia. rewrite (Pq (i + (p - q))) by lia. f_equal. lia.
      - intros i Hi. apply Pq. lia. }
    assert (Gn : 1 <= Nat.gcd p q) by (destruct (Nat.gcd p q) eqn:E; [apply Nat.gcd_eq_0_r in E; lia|lia]).
    destruct (Nat.gcd_divide_r p q) as (t & Et). set (g := Nat.gcd p q) in *.
    (* a place in the last q characters is moved back by q *)
    intros i Hi. destruct (Nat.le_gt_cases q i) as [Hqi|Hqi].
    2:{ destruct (Nat.lt_ge_cases (i + g) (n - q)) as [|Ge]; [now apply Short|]. assert (q <= n - q) by lia.
        (* i < q <= n - q but i + g is behind *)
        assert (Ei : K (i + g) = K (i + g - q)) by (rewrite (Pq (i + g - q)) by lia; f_equal; lia).
        rewrite Ei. assert (D : i = i + g - q + (t - 1) * g). { assert (t * g = (t - 1) * g + g) by (destruct t; simpl in *; lia). lia. }
        rewrite D at 1. symmetry. apply per_mul with (n - q); auto. lia. }
    replace (K i) with (K (i - q)) by (rewrite (Pq (i - q)) by lia; f_equal; lia). replace (K (i + g)) with (K (i - q + g)) by (rewrite (Pq (i - q + g)) by lia; f_equal; lia).
    apply Short. lia. }
  induction s as [|s IH]; intros p q n Hs Hp Hq Pp Pq Hn; [lia|]. destruct (Nat.lt_trichotomy p q) as [Lt|[E|Gt]].
  - rewrite Nat.gcd_comm. apply (Step s IH); auto; try lia. rewrite Nat.gcd_comm. lia.
  - subst q. now rewrite Nat.gcd_diag.
  - now apply (Step s IH).
Qed.

Lemma bord_per : forall a b, bord K a b -> per a (a - b).
Proof. intros a b (L & H) i Hi. rewrite H by lia. f_equal. lia. Qed.
(** two steps along the failure links lose as much as they leave *)
Lemma two_steps : forall a b c, b < a -> c < b -> bord K a b -> bord K b c -> K c <> K b -> b + c + 2 <= a.
Proof.
  intros a b c Hb Hc Bb Bc Hne. destruct (Nat.le_gt_cases (b + c + 2) a) as [|Hlt]; auto. exfalso. apply Hne.
  pose proof (bord_per a b Bb) as Pp. pose proof (bord_per b c Bc) as Pq. set (p := a - b) in *. set (q := b - c) in *.
  assert (Gn : 1 <= Nat.gcd p q) by (destruct (Nat.gcd p q) eqn:E; [apply Nat.gcd_eq_0_r in E; lia|lia]).
  assert (Pg : per b (Nat.gcd p q)). { apply (fine_wilf (p + q)); auto; try lia. intros i Hi. apply Pp. lia. }
  assert (Eb : K b = K (b - p)) by (rewrite (Pp (b - p)) by lia; f_equal; lia). rewrite Eb. replace c with (b - q) by lia.
  destruct (Nat.gcd_divide_l p q) as (t & Et). destruct (Nat.gcd_divide_r p q) as (u & Eu). set (g := Nat.gcd p q) in *.
  destruct (Nat.le_gt_cases p q).
  - replace (b - p) with (b - q + (u - t) * g) by (rewrite Nat.mul_sub_distr_r; lia). apply per_mul with b; auto. rewrite Nat.mul_sub_distr_r. lia.
  - symmetry. replace (b - q) with (b - p + (t - u) * g) by (rewrite Nat.mul_sub_distr_r; lia). apply per_mul with b; auto. rewrite Nat.mul_sub_distr_r. lia.
Qed.
End Period.

(** ** the table of Kmp *)
Section Table.
Variable key : list N.
Let m := length key.
Let K := fun j => nth j key 0%N.
(** a failure link leads to another character *)
Definition strict (next : list Z) (i : nat) : Prop := forall j b, j <= i -> j < m -> nth j next 0%Z = Z.of_nat b -> K b <> K j.
Lemma fill_strict : forall next n i next' n', i < m -> filled key next i -> longest K i n -> strict next i -> kmp_fill key (next, n) i = Ok (next', n') -> strict next' (S i).
Proof.
  intros next n i next' n' Hi F Lg S E. destruct (kmp_fill_ok key next n i Hi F Lg) as (nx & nn & E' & _ & Lg'). assert (nn = n' /\ nx = next') as (-> & ->) by (rewrite E in E'; split; congruence). clear E'.
  destruct Lg' as [(F0 & _)|(b & Eb & Lb & _)]; [lia|]. destruct F as (Ln & _). fold m in Ln.
  unfold kmp_fill in E. apply bind_Ok_inv in E. destruct E as (c & _ & E). apply bind_Ok_inv in E. destruct E as (r & _ & E). cbv zeta in E. apply bind_Ok_inv in E. destruct E as (v & Ev & E).
  apply bind_Ok_inv in E. destruct E as (nx & Es & E). assert (Er : (r + 1)%Z = Z.of_nat b) by congruence. assert (nx = next') by congruence. subst nx. clear E. rewrite Er, Nat2Z.id in Ev. apply lset_inv in Es. destruct Es as (_ & ->).
  intros j x Hj Hm Ex. rewrite nth_upd in Ex. rewrite (proj2 (Nat.ltb_lt (i + 1) _)) in Ex by lia. rewrite andb_true_r in Ex. destruct (Nat.eqb_spec j (i + 1)) as [->|Nj]; [|apply S; auto; lia].
  fold m in Ev. rewrite (proj2 (Nat.ltb_lt (i + 1) m)) in Ev by lia. rewrite (lget_nth _ key (i + 1) 0%N), (lget_nth _ key b 0%N) in Ev by (fold m; lia). cbn [bind] in Ev.
  destruct (N.eqb_spec (nth (i + 1) key 0%N) (nth b key 0%N)) as [Ek|Ek].
  - rewrite (lget_nth _ next b 0%Z) in Ev by lia. assert (Nb : nth b next 0%Z = Z.of_nat x) by congruence. unfold K at 2. rewrite Ek. apply (S b x); auto; lia.
  - assert (b = x) by (assert (Z.of_nat b = Z.of_nat x) by congruence; lia). subst x. unfold K. congruence.
Qed.
Lemma make_strict : 1 <= m -> exists next, kmp_make key = Ok next /\ filled key next m /\ strict next m.
Proof.
  intros Hm. unfold kmp_make. fold m. rewrite lset_Ok by (rewrite repeat_length; lia). cbn [bind].
  assert (G : forall k, k <= m -> exists next n, foldM (kmp_fill key) (seq 0 k) (upd (repeat 0%Z (m + 1)) 0 (-1)%Z, (-1)%Z) = Ok (next, n) /\ filled key next k /\ longest K k n /\ strict next k).
  { induction k as [|k IH]; intros Hk.
    - eexists. eexists. split; [reflexivity|]. split; [|split; [left; auto|]].
      + split; [now rewrite upd_length, repeat_length|]. intros j Hj. assert (j = 0) by lia. subst j. split; [|lia]. intros _.
        rewrite nth_upd. rewrite repeat_length, (proj2 (Nat.ltb_lt _ _)) by lia. cbn. split; [auto|]. intros; lia.
      + intros j b Hj _ E. assert (j = 0) by lia. subst j. rewrite nth_upd, repeat_length, (proj2 (Nat.ltb_lt _ _)) in E by lia. cbn in E. lia.
    - destruct (IH ltac:(lia)) as (next & n & E & F & Lg & St). rewrite seq_S, foldM_app, E. cbn [bind foldM plus]. destruct (kmp_fill_ok key next n k ltac:(fold m; lia) F Lg) as (next' & n' & E' & F' & Lg').
      pose proof (fill_strict next n k next' n' ltac:(lia) F Lg St E'). rewrite E'. cbn [bind]. exists next', n'. auto. }
  destruct (G m (le_n _)) as (next & n & E & F & _ & St). rewrite E. cbn [bind fst]. exists next. auto.
Qed.

Section Loop.
Variables (next : list Z) (mem : list N) (c : N).
Hypothesis F : filled key next m.
Hypothesis St : strict next m.
Lemma link : forall n, n < m -> nth n next 0%Z = (-1)%Z \/ exists b, nth n next 0%Z = Z.of_nat b /\ b < n /\ bord K n b /\ K b <> K n.
Proof.
  intros n Hn. destruct F as (_ & G). destruct (G n ltac:(fold m; lia)) as (G1 & _). destruct (G1 Hn) as ([N|(b & Eb & Lb & Bb)] & _); auto. right. exists b. split; auto. split; auto. split; auto. apply (St n b); auto. lia.
Qed.
(** the comparisons made from n *)
Lemma back_inv : forall fuel n k k' r, kmp_back_count fuel mem next c (Z.of_nat n) k = Ok (k', r) -> k' = S k \/ exists fuel' , lget next n = Ok (nth n next 0%Z) /\ kmp_back_count fuel' mem next c (nth n next 0%Z) (S k) = Ok (k', r).
Proof.
  clear F St. intros fuel n k k' r E. destruct fuel as [|fuel]; cbn [kmp_back_count] in E; rewrite (proj2 (Z.eqb_neq _ _)) in E by lia; rewrite Nat2Z.id in E; apply bind_Ok_inv in E; destruct E as (x & _ & E); destruct (_ =? _)%N.
  - left. congruence.
  - discriminate.
  - left. congruence.
  - right. apply bind_Ok_inv in E. destruct E as (y & Ey & E). exists fuel. assert (y = nth n next 0%Z). { destruct (Nat.lt_ge_cases n (length next)) as [L|L]; [rewrite (lget_nth _ next n 0%Z) in Ey by auto; congruence|rewrite (proj2 (lget_UB _ _ _)) in Ey by lia; discriminate]. } subst y. auto.
Qed.
Lemma back_minus : forall fuel k k' r, kmp_back_count fuel mem next c (-1)%Z k = Ok (k', r) -> k' = k.
Proof. clear F St. intros fuel k k' r E. destruct fuel; cbn in E; congruence. Qed.
Lemma fib_SS : forall n, fib (S (S n)) = fib (S n) + fib n.
Proof. reflexivity. Qed.
Lemma back_delay : forall n fuel k k' r, n < m -> kmp_back_count fuel mem next c (Z.of_nat n) k = Ok (k', r) -> exists d, k' = k + S d /\ fib (d + 3) <= n + 2.
Proof.
  induction n as [n IH] using lt_wf_ind; intros fuel k k' r Hn E.
  destruct (back_inv _ _ _ _ _ E) as [->|(f1 & _ & E1)]; [exists 0; split; [lia|cbn; lia]|].
  destruct (link n Hn) as [N|(b & Nb & Lb & Bb & Kb)].
  - rewrite N in E1. apply back_minus in E1. exists 0. split; [lia|cbn; lia].
  - rewrite Nb in E1. destruct (IH b Lb f1 (S k) k' r ltac:(lia) E1) as (d & Ed & Hd). exists (S d). split; [lia|].
    destruct (back_inv _ _ _ _ _ E1) as [E2|(f2 & _ & E2)]; [assert (d = 0) by lia; subst d; cbn; lia|].
    destruct (link b ltac:(lia)) as [N|(a & Na & La & Ba & Ka)].
    + rewrite N in E2. apply back_minus in E2. assert (d = 0) by lia. subst d. cbn. lia.
    + rewrite Na in E2. destruct (IH a ltac:(lia) f2 (S (S k)) k' r ltac:(lia) E2) as (d' & Ed' & Hd'). assert (d = S d') by lia. subst d.
      pose proof (two_steps K n b a Lb La Bb Ba Ka). change (S (S d') + 3) with (S (S (d' + 3))). rewrite fib_SS. replace (S (d' + 3)) with (S d' + 3) by lia. lia.
Qed.
Lemma top_delay : forall fuel k k' r pos, (0 <= pos)%Z -> 1 <= m -> kmp_back_count fuel mem next c pos k = Ok (k', r) -> exists d, k' = k + d /\ fib (d + 1) <= m + 1 /\ (-1 <= r)%Z.
Proof.
  intros fuel k k' r pos Hp Hm E. replace pos with (Z.of_nat (Z.to_nat pos)) in E by lia. set (n := Z.to_nat pos) in *. clearbody n. clear Hp.
  assert (Fa : falling next).
  { destruct F as (Ln & G). fold m in Ln. intros j Hj. destruct (G j ltac:(fold m; lia)) as (G1 & G2). destruct (Nat.eq_dec j m) as [Ej|].
    - destruct (G2 Ej) as ([N|(b & Nb & Lb & _)] & _); rewrite ?N, ?Nb; [lia|]. fold m in Lb. lia.
    - destruct (G1 ltac:(fold m; lia)) as ([N|(b & Nb & Lb & _)] & _); rewrite ?N, ?Nb; lia. }
  assert (Hr : (-1 <= r)%Z) by (apply kmp_back_cost in E; auto; lia).
  assert (Lt : forall d n, n < m -> fib (d + 3) <= n + 2 -> fib (S (S d) + 1) <= m + 1) by (intros d x H1 H2; replace (S (S d) + 1) with (d + 3) by lia; lia).
  destruct (Nat.lt_trichotomy n m) as [H|[H|H]].
  - destruct (back_delay n fuel k k' r H E) as (d & Ed & Hd). exists (S d). split; auto. split; auto. replace (d + 3) with (S (S (S d))) in Hd by lia. rewrite fib_SS in Hd. replace (S d + 1) with (S (S d)) by lia.
    assert (1 <= fib (S d)) by (clear; induction d; [cbn; lia|rewrite fib_SS; lia]). lia.
  - destruct (back_inv _ _ _ _ _ E) as [->|(f1 & _ & E1)]; [exists 1; split; [lia|split; [cbn; lia|auto]]|].
    destruct F as (Ln & G). destruct (G n ltac:(fold m; lia)) as (_ & G2). destruct (G2 H) as ([N|(b & Nb & Lb & _)] & _).
    + rewrite N in E1. apply back_minus in E1. exists 1. split; [lia|]. split; [cbn; lia|auto].
    + rewrite Nb in E1. fold m in Lb. destruct (back_delay b f1 (S k) k' r Lb E1) as (d & Ed & Hd). exists (S (S d)). split; [lia|]. split; auto. now apply (Lt d b).
  - destruct (back_inv _ _ _ _ _ E) as [->|(f1 & El & E1)]; [exists 1; split; [lia|split; [cbn; lia|auto]]|].
    destruct F as (Ln & _). fold m in Ln. rewrite (proj2 (lget_UB _ _ _)) in El by lia. discriminate.
Qed.
End Loop.
End Table.

Lemma back_shift : forall mem next c fuel n k k' r, kmp_back_count fuel mem next c n 0 = Ok (k', r) -> kmp_back_count fuel mem next c n k = Ok (k + k', r).
Proof.
  intros mem next c. assert (G : forall fuel n k j k' r, kmp_back_count fuel mem next c n j = Ok (k', r) -> kmp_back_count fuel mem next c n (k + j) = Ok (k + k', r)).
  { induction fuel as [|fuel IH]; intros n k j k' r E; cbn [kmp_back_count] in *; destruct (n =? -1)%Z; try (assert (k' = j) by congruence; subst; congruence); apply bind_Ok_inv in E; destruct E as (x & Ex & E); rewrite Ex; cbn [bind]; destruct (_ =? _)%N; try discriminate.
    - assert (k' = S j) by congruence. subst k'. replace (k + S j) with (S (k + j)) by lia. congruence.
    - assert (k' = S j) by congruence. subst k'. replace (k + S j) with (S (k + j)) by lia. congruence.
    - apply bind_Ok_inv in E. destruct E as (y & Ey & E). rewrite Ey. cbn [bind]. rewrite <- (IH y k (S j) k' r E). f_equal. lia. }
  intros fuel n k k' r E. rewrite <- (G fuel n k 0 k' r E). f_equal. lia.
Qed.
Lemma fib_log : forall d m, fib (d + 1) <= m -> d <= 2 * Nat.log2 m + 1.
Proof.
  assert (P : forall k, 2 ^ k <= fib (2 * k + 1) /\ 2 ^ k <= fib (2 * k + 2)).
  { induction k as [|k (I1 & I2)]; [cbn; lia|]. replace (2 * S k + 1) with (S (S (2 * k + 1))) by lia. replace (2 * S k + 2) with (S (S (2 * k + 2))) by lia. rewrite !fib_SS. replace (S (2 * k + 1)) with (2 * k + 2) by lia.
    replace (S (2 * k + 2)) with (S (S (2 * k + 1))) by lia. rewrite fib_SS. replace (S (2 * k + 1)) with (2 * k + 2) by lia. rewrite Nat.pow_succ_r'. lia. }
  intros d m H. assert (Hd : 2 ^ (d / 2) <= m). { pose proof (Nat.div_mod d 2 ltac:(lia)). pose proof (Nat.mod_upper_bound d 2 ltac:(lia)). destruct (P (d / 2)) as (P1 & P2).
    destruct (Nat.eq_dec (d mod 2) 0); [replace (d + 1) with (2 * (d / 2) + 1) in H by lia; lia|replace (d + 1) with (2 * (d / 2) + 2) in H by lia; lia]. }
  apply Nat.log2_le_pow2 in Hd; [|destruct m; [|lia]; pose proof (Nat.pow_nonzero 2 (d / 2)); lia]. pose proof (Nat.div_mod d 2 ltac:(lia)). pose proof (Nat.mod_upper_bound d 2 ltac:(lia)). lia.
Qed.
Theorem kmp_delay : forall beyond text key l, key <> [] -> match_kmp beyond text key = Ok l ->
  exists ds k1, match_kmp_delays beyond text key = Ok ds /\ length ds = length text /\ match_kmp_count beyond text key = Ok (k1, (list_sum ds, l)) /\
    Forall (fun d => fib (d + 1) <= length key + 1 /\ d <= 2 * Nat.log2 (length key + 1) + 1) ds.
Proof.
  intros beyond text key l Hk E. assert (Hm : 1 <= length key) by (destruct key; [congruence|simpl; lia]).
  destruct (make_strict key Hm) as (next & En & F & St). unfold match_kmp in E. rewrite En in E. cbn [bind] in E. unfold match_kmp_delays, match_kmp_count. rewrite En. cbn [bind].
  pose proof (kmp_make_same key) as Sm. rewrite En in Sm. destruct (kmp_make_count key) as [[k1 nx]| | |]; try discriminate. cbn in Sm. assert (nx = next) by congruence. subst nx. clear Sm. cbn [bind snd fst].
  assert (G : forall text i pos k l, (0 <= pos)%Z -> kmp_loop (key ++ beyond) (length key) next text i pos = Ok l ->
    exists ds, kmp_delays (key ++ beyond) (length key) next text pos = Ok ds /\ length ds = length text /\ kmp_loop_count (key ++ beyond) (length key) next text i pos k = Ok (k + list_sum ds, l) /\
      Forall (fun d => fib (d + 1) <= length key + 1 /\ d <= 2 * Nat.log2 (length key + 1) + 1) ds).
  { clear l E. induction text0 as [|c t IH]; intros i pos k l Hp E; cbn [kmp_loop kmp_delays kmp_loop_count] in *.
    - exists []. split; auto. split; auto. split; [|constructor]. cbn. rewrite Nat.add_0_r. congruence.
    - apply bind_Ok_inv in E. destruct E as (p & Ep & E). apply bind_Ok_inv in E. destruct E as (r & Er & E).
      pose proof (kmp_back_same (key ++ beyond) next c (S (length key)) pos 0) as Sb. rewrite Ep in Sb. destruct (kmp_back_count (S (length key)) (key ++ beyond) next c pos 0) as [[d p']| | |] eqn:Ec; try discriminate. cbn in Sb. assert (p' = p) by congruence. subst p'.
      destruct (top_delay key next (key ++ beyond) c F St (S (length key)) 0 d p pos Hp Hm Ec) as (d' & Ed & Hd & Hr). cbn in Ed. subst d'.
      destruct (IH (S i) (p + 1)%Z (k + d) r ltac:(lia) Er) as (ds & D1 & D2 & D3 & D4). exists (d :: ds). cbn [bind snd fst]. rewrite D1. cbn [bind]. split; auto. split; [cbn; lia|]. split.
      + rewrite (back_shift _ _ _ _ _ k _ _ Ec). cbn [bind snd fst]. rewrite D3. cbn [bind fst snd]. unfold list_sum. cbn [fold_right]. rewrite <- Nat.add_assoc. congruence.
      + constructor; auto. split; auto. now apply fib_log. }
  destruct (G text 0 0%Z 0 l ltac:(lia) E) as (ds & D1 & D2 & D3 & D4). exists ds, k1. rewrite D3. auto.
Qed.
