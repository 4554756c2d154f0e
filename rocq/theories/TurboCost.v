(** The number of windows, image calls and comparisons of TurboBom (C141). *)
From Coq Require Import List NArith ZArith Arith Bool Lia Sorted.
From Verif Require Import Base Spec4 PatternModel PatternProof KmpProof FoModel FoRing FoFree FoArray FoOracle FoProof BomProof TurboSpec TurboProof PatternCostModel PatternCost TurboCostModel.
Import ListNotations.
Local Open Scope nat_scope.

Lemma tbom_kmp_same : forall mem m next text pos k, rmap snd (tbom_kmp_count mem m next text pos k) = tbom_kmp mem m next text pos.
Proof.
  intros mem m next. induction text as [|c text IH]; intros pos k; cbn [tbom_kmp_count tbom_kmp]; auto. rewrite <- (kmp_back_same mem next c (S m) pos k). step (kmp_back_count (S m) mem next c pos k).
Qed.
Lemma tbom_kmp_cost : forall mem m next, falling next -> forall text pos k k' p, (0 <= pos)%Z -> tbom_kmp_count mem m next text pos k = Ok (k', p) -> (0 <= p)%Z /\ (Z.of_nat k' + p <= Z.of_nat k + pos + 2 * Z.of_nat (length text))%Z.
Proof.
  intros mem m next F. induction text as [|c text IH]; intros pos k k' p Hp; cbn [tbom_kmp_count length].
  - intros E. injection E as <- <-. lia.
  - intros E. apply bind_Ok_inv in E. destruct E as ([k1 p1] & E1 & E2). cbn [fst snd] in *. apply kmp_back_cost in E1; auto; [|lia]. apply IH in E2; [|lia]. destruct (Z.eqb_spec p1 (-1)); lia.
Qed.
Lemma tbom_loop_same : forall beyond mem next o m text fuel back c, rmap snd (tbom_loop_count fuel beyond mem next o m text back c) = tbom_loop fuel beyond mem next o m text back c.
Proof.
  intros beyond mem next o m text. induction fuel as [|fuel IH]; intros back c; cbn [tbom_loop_count tbom_loop]; destruct (back <? _)%Z; auto. destruct (back <? 0)%Z; auto.
  rewrite <- (bom_back_same beyond o text m (S (Z.to_nat back)) 0 0). step (bom_back_count beyond o text m (S (Z.to_nat back)) 0 0). destruct a as [k r]. cbn [fst snd]. destruct (r =? 0).
  - step (lget next m). rewrite <- IH. step (tbom_loop_count fuel beyond mem next o m text (back + Z.of_nat m - a) (back + 1)). destruct a0 as [[[w k1] q] l]. reflexivity.
  - cbv zeta. destruct (_ <? _)%Z; auto. rewrite <- (tbom_kmp_same mem m next _ _ 0). destruct (tbom_kmp_count _ _ _ _ _ _) as [[k1 p]| | |]; cbn [bind rmap fst snd]; auto.
    rewrite <- IH. destruct (tbom_loop_count _ _ _ _ _ _ _ _ _) as [[[[w k2] q] l]| | |]; reflexivity.
Qed.

Section TurboCost.
Variable key text bk : list N.
Let m := length key.
Let K := fun j => nth j key 0%N.
Hypothesis Hm : 1 <= m.
Hypothesis Hkey : nonzero_bytes key.
Hypothesis Htext : bytes_below 256 text.
Variable z : N.
Variable beyond : list N.
Hypothesis Hz : ~ In z text.
Variable o : foracle.
Variable log : list (nat * nat).
Variable lrs : list nat.
Hypothesis Hbuilt : Built (rev key) o log lrs.
Variable next : list Z.
Hypothesis Hnext : filled key next m.
Hypothesis Hfall : falling next.
Hypothesis Hend : (exists z r, bk = z :: r /\ ~ In z text) \/ forall x, x + m <= length text -> occurs_at key text x = true -> ~ overlapped key text x.
Let tb := tb key text.
Let h := Nat.div2 m.

Definition within (b c w k q : nat) (l : list nat) : Prop := exists miss, w = length l + miss /\ (length text < b + m -> w = 0 /\ q = 0) /\
  (b + m <= length text -> miss * h + c <= length text + h /\ w + b + c + m <= length text + length text + 1) /\
  m * length l + miss <= k <= m * length l + m * miss /\ q <= c - b + 2 * (length text - c).
Lemma within_nil : forall b c, length text < b + m -> within b c 0 0 0 [].
Proof. intros b c H. exists 0. cbn [length]. repeat split; lia. Qed.
Lemma tbom_loop_cost : forall steps b c w k q l, length text < b + m \/ (b <= c <= length text /\ tb c (c - b)) ->
  tbom_loop_count steps (z :: beyond) (key ++ bk) next o m text (Z.of_nat (b + m) - 1) (Z.of_nat c) = Ok (w, k, q, l) -> within b c w k q l.
Proof.
  induction steps as [|steps IH]; intros b c w k q l Inv; cbn [tbom_loop_count]; (destruct (Z.ltb_spec (Z.of_nat (b + m) - 1) (Z.of_nat (length text))) as [L|L]; [|intros E; injection E as <- <- <- <-; apply within_nil; lia]); [discriminate|].
  destruct Inv as [Inv|((Bc & Cl) & Tc)]; [lia|]. assert (Cb : c - b <= m) by apply Tc. rewrite (proj2 (Z.ltb_ge _ 0)) by lia. replace (S (Z.to_nat (Z.of_nat (b + m) - 1))) with (S (b + m - 1)) by lia.
  intros E. apply bind_Ok_inv in E. destruct E as ([k1 r] & E1 & E). pose proof (bom_back_cost _ _ _ _ _ _ _ _ _ E1) as (Rm & K1).
  destruct (back_ok key text Hkey Htext z beyond Hz o log lrs Hbuilt m (S (b + m - 1)) 0 ltac:(lia) ltac:(lia)) as (r' & E' & R1 & P & Q). rewrite <- (bom_back_same _ _ _ _ _ _ 0), E1 in E'. injection E' as <-. cbn [fst snd] in E. destruct (Nat.eqb_spec r 0) as [->|Nr].
  - rewrite Nat.sub_0_r in P. pose proof (bw_full key text Hkey beyond o log lrs Hbuilt (S (b + m - 1)) ltac:(fold m; lia) P) as Oc. fold m in Oc. replace (S (b + m - 1) - m) with b in Oc by lia.
    destruct Hnext as (Ln & F). fold m in Ln. rewrite (lget_nth _ next m 0%Z) in E by lia. cbn [bind] in E. destruct (F m (le_n _)) as (_ & Fm). destruct (Fm eq_refl) as (F1 & F2). fold m K in F1, F2.
    destruct F1 as [V|(n & V & Lv & Bv)]; [exfalso; apply (F2 0); [lia|lia|apply bord_0]|]. rewrite V in E. apply bind_Ok_inv in E. destruct E as ([[[w2 k2] q2] l2] & E2 & E). injection E as <- <- <- <-.
    replace (Z.of_nat (b + m) - 1 + Z.of_nat m - Z.of_nat n)%Z with (Z.of_nat (b + (m - n) + m) - 1)%Z in E2 by lia. replace (Z.of_nat (b + m) - 1 + 1)%Z with (Z.of_nat (b + m)) in E2 by lia.
    apply IH in E2.
    + destruct E2 as (miss & W & Z0 & Bd & Kb & Qb). exists miss. cbn [length]. split; [lia|]. split; [lia|]. split; [|split; [lia|]].
      * intros _. destruct (Nat.le_gt_cases (b + (m - n) + m) (length text)) as [C|C]; [|destruct (Z0 C); assert (miss = 0) by lia; subst miss; lia]. destruct (Bd C). lia.
      * destruct (Nat.le_gt_cases (b + (m - n) + m) (length text)) as [C|C]; [|destruct (Z0 C); lia]. lia.
    + right. split; [lia|]. replace (b + m - (b + (m - n))) with n by lia. apply (tb_bord key text K (b + m) m n); auto. apply occ_tb; [lia|auto|]. fold m. split; [lia|]. now replace (b + m - m) with b by lia.
  - assert (No : forall x, b <= x < b + r -> x + m <= length text -> occurs_at key text x = false).
    { intros x Hx Lx. destruct (occurs_at key text x) eqn:Ox; auto. exfalso. apply Q; [lia|]. apply (occ_factor key text Hkey o log lrs Hbuilt x (b + m - 1) r); fold m; auto; lia. }
    assert (Ob : occurs_at key text b = false) by (apply No; lia). pose proof (not_full key text Hm b c Tc Ob ltac:(fold m; lia)) as Lp. fold m in Lp. cbv zeta in E.
    replace (Z.of_nat (b + m) - 1 - Z.of_nat m + 1 + Z.of_nat r)%Z with (Z.of_nat (b + r)) in E by lia. set (kb := Nat.max (b + r) c) in *. replace (Z.max (Z.of_nat (b + r)) (Z.of_nat c)) with (Z.of_nat kb) in E by (unfold kb; lia). rewrite (proj2 (Z.ltb_ge _ _)) in E by (unfold kb; lia). rewrite Nat2Z.id in E. fold h in E.
    assert (Hh : h < m) by (unfold h; rewrite Nat.div2_div; apply Nat.div_lt; lia).
    set (lo := if c <? b + r then b + r else b). set (pre := if c <? b + r then 0 else c - b).
    assert (Epre : (if (Z.of_nat c <? Z.of_nat (b + r))%Z then 0%Z else (Z.of_nat c - (Z.of_nat (b + m) - 1 - Z.of_nat m + 1))%Z) = Z.of_nat pre).
    { unfold pre. destruct (Nat.ltb_spec c (b + r)); destruct (Z.ltb_spec (Z.of_nat c) (Z.of_nat (b + r))); lia. }
    rewrite Epre in E.
    assert (Lg : lolong key text lo kb pre).
    { unfold lo, pre, kb. destruct (Nat.ltb_spec c (b + r)).
      - replace (Nat.max (b + r) c) with (b + r) by lia. split; [split; [lia|]; split; [lia|]; intros; lia|]. split; [lia|]. intros; lia.
      - replace (Nat.max (b + r) c) with c by lia. split; [auto|]. split; [lia|]. intros; lia. }
    assert (Ins : forall x, b + r <= x -> x + m <= length text -> occurs_at key text x = true -> x + m < kb + h -> overlapped key text x).
    { intros x X1 X2 X3 X4. destruct (Nat.le_gt_cases (b + r) c) as [Lc|Lc].
      - replace kb with c in X4 by (unfold kb; lia). apply (inside_overlapped key text Hm b c x); auto; fold m h; lia.
      - exfalso. replace kb with (b + r) in X4 by (unfold kb; lia). lia. }
    set (kl := Nat.min h (length text - kb)).
    assert (Ef : firstn h (skipn kb text) = firstn kl (skipn kb text)).
    { unfold kl. destruct (Nat.le_gt_cases h (length text - kb)); [now rewrite Nat.min_l by lia|]. rewrite Nat.min_r by lia. rewrite firstn_all2 by (rewrite skipn_length; lia). rewrite firstn_all2 by (rewrite skipn_length; lia). reflexivity. }
    rewrite Ef in E. apply bind_Ok_inv in E. destruct E as ([q1 n'] & En & E). cbn [fst snd] in E.
    destruct (tbom_kmp_ok key text bk Hm next lo Hnext kl kb pre) as (n & En' & (N1 & N2 & N3)).
    + unfold kl, kb. lia.
    + unfold lo, kb. destruct (Nat.ltb_spec c (b + r)); lia.
    + auto.
    + fold m. intros j Hj Tj Lj. destruct Hend as [(z' & t & Eb & Nz)|Ne].
      * exists z', t. split; auto. intros ->. apply Nz. apply nth_In. unfold kl in Hj. lia.
      * exfalso. unfold kl in Hj. apply occ_tb in Tj; [|lia|auto]. fold m in Tj. destruct Tj as (Lj' & Oj). assert (Xb : b + r <= j - m).
        { destruct (Nat.le_gt_cases (b + r) (j - m)); auto. exfalso. rewrite No in Oj; [discriminate| |lia]. unfold lo in Lj. destruct (Nat.ltb_spec c (b + r)); lia. }
        apply (Ne (j - m)); auto; [lia|]. apply Ins; auto; lia.
    + fold m in En'. rewrite <- (tbom_kmp_same _ _ _ _ _ 0), En in En'. injection En' as ->. pose proof (tbom_kmp_cost _ _ _ Hfall _ _ _ _ _ (Nat2Z.is_nonneg pre) En) as (_ & Q1). rewrite firstn_length, skipn_length in Q1.
      assert (Nm : n <= m) by apply N1. apply bind_Ok_inv in E. destruct E as ([[[w2 k2] q2] l2] & E2 & E). injection E as <- <- <- <-.
      assert (Pre : pre <= c - b) by (unfold pre; destruct (Nat.ltb_spec c (b + r)); lia).
      assert (Kb : c <= kb <= length text) by (unfold kb; lia).
      assert (Kl : kl <= h /\ kl <= length text - kb) by (unfold kl; lia).
      assert (Lk : kl + (length text - (kb + h)) = length text - kb) by (unfold kl; lia).
      assert (Nlo : n <= kb + h) by lia.
      replace (Z.of_nat kb + Z.of_nat h - Z.of_nat n + Z.of_nat m - 1)%Z with (Z.of_nat (kb + h - n + m) - 1)%Z in E2 by lia. replace (Z.of_nat kb + Z.of_nat h)%Z with (Z.of_nat (kb + h)) in E2 by lia.
      assert (Bn : b + c < kb + h - n + (kb + h)).
      { assert (h = 0 -> m = 1) by (intros H0; unfold h in H0; rewrite Nat.div2_div in H0; apply Nat.div_small_iff in H0; lia). clearbody kl. destruct (Nat.eq_dec h 0) as [H0|H0]; unfold kb, lo in *; destruct (Nat.ltb_spec c (b + r)); lia. }
      assert (Far : kb + h <= length text \/ length text < kb + h - n + m) by (clear - Nm Nlo Hh Lk Kl; lia).
      apply IH in E2.
      * destruct E2 as (miss & W & Z0 & Bd & Kq & Qb). exists (S miss). split; [lia|]. split; [lia|]. split; [|split].
        -- intros _. cbn [Nat.mul]. destruct (Nat.le_gt_cases (kb + h - n + m) (length text)) as [C|C]; [|destruct (Z0 C); assert (miss = 0) by lia; subst miss; cbn [Nat.mul]; lia]. destruct (Bd C). lia.
        -- rewrite Nat.mul_succ_r. destruct (Nat.eqb_spec r 0); lia.
        -- destruct (Nat.le_gt_cases (kb + h - n + m) (length text)) as [C|C]; [|destruct (Z0 C); lia]. lia.
      * destruct Far as [Far|Far]; [|left; exact Far]. right. replace kl with h in N1 by (unfold kl; lia). split; [lia|]. now replace (kb + h - (kb + h - n)) with n by lia.
Qed.
End TurboCost.

Theorem turbo_cost : forall fuel steps text key z beyond bk o, key <> [] -> nonzero_bytes key -> bytes_below 256 text -> ~ In z text -> length text + length text < steps -> fo_build fuel (rev key) = Ok o ->
  (exists z' r, bk = z' :: r /\ ~ In z' text) \/ no_short_period key ->
  exists w k q l, match_tbom fuel steps (z :: beyond) bk text key = Ok l /\ match_tbom_count fuel steps (z :: beyond) bk text key = Ok (w, k, q, l) /\
    length l <= w <= 2 * length text /\ (w - length l) * (length key / 2) <= length text + length key / 2 /\
    length key * length l + (w - length l) <= k <= length key * length l + 3 * length text + 2 * length key /\ q <= 2 * length text.
Proof.
  intros fuel steps text key z beyond bk o Nk Hk Ht Hz Hs E Hend. assert (Lk : 1 <= length key) by (destruct key; [congruence|cbn [length]; lia]).
  assert (Hend' : (exists z' r, bk = z' :: r /\ ~ In z' text) \/ (forall x, x + length key <= length text -> occurs_at key text x = true -> ~ overlapped key text x)) by (destruct Hend; [now left|right; intros; now apply no_period_not_overlapped]).
  destruct (turbo_exact fuel steps text key z beyond bk o Nk Hk Ht Hz Hs E Hend') as (l & El & _).
  destruct (build_Built fuel (rev key) o (rev_bytes key Hk) E) as (log & lrs & B). destruct (kmp_make_ok key Lk) as (next & En & F).
  assert (Fa : falling next). { pose proof En as En2. rewrite <- kmp_make_same in En2. destruct (kmp_make_count key) as [[k1 nx]| | |] eqn:Ec; try discriminate. injection En2 as ->. now destruct (kmp_make_cost _ _ _ Ec). }
  pose proof El as El2. unfold match_tbom in El2. rewrite E, En in El2. cbn [bind] in El2. rewrite <- tbom_loop_same in El2.
  destruct (tbom_loop_count steps (z :: beyond) (key ++ bk) next o (length key) text (Z.of_nat (length key) - 1) 0) as [[[[w k] q] l']| | |] eqn:Ec; try discriminate. injection El2 as ->.
  exists w, k, q, l. split; auto. split; [unfold match_tbom_count; rewrite E, En; exact Ec|].
  destruct (tbom_loop_cost key text bk Lk Hk Ht z beyond Hz o log lrs B next F Fa Hend' steps 0 0 w k q l) as (miss & W & Z0 & Bd & Kb & Qb); [right; split; [lia|]; split; [lia|]; split; [lia|]; intros; lia|exact Ec|].
  rewrite <- Nat.div2_div. assert (Hh : length key <= 3 * Nat.div2 (length key) \/ length key = 1) by (rewrite Nat.div2_div; pose proof (Nat.div_mod (length key) 2 ltac:(lia)); pose proof (Nat.mod_upper_bound (length key) 2 ltac:(lia)); lia).
  assert (H2 : 2 * Nat.div2 (length key) <= length key) by (rewrite Nat.div2_div; apply Nat.mul_div_le; lia). set (h := Nat.div2 (length key)) in *. replace (w - length l) with miss by lia.
  destruct (Nat.le_gt_cases (0 + length key) (length text)) as [C|C].
  - destruct (Bd C) as (B1 & B2). split; [lia|]. split; [lia|]. split; [|lia]. split; [lia|]. assert (length key * miss <= 3 * length text + 2 * length key); [|lia]. destruct Hh as [Hh| ->]; [|lia]. transitivity (3 * h * miss); [apply Nat.mul_le_mono_r; exact Hh|]. lia.
  - destruct (Z0 C). assert (miss = 0) by lia. subst miss. cbn [Nat.mul]. lia.
Qed.
Lemma occurs_run : forall a n m x, 1 <= m -> x + m <= n -> occurs_at (repeat a m) (repeat a n) x = true.
Proof.
  intros a n m x Hm Hx. apply occurs_spec; rewrite ?repeat_length; [lia|]. split; auto. intros j Hj. rewrite !nth_repeat_lt by lia. reflexivity.
Qed.
Theorem turbo_runs : forall a n m z beyond z' bk, (0 < a < 256)%N -> z <> a -> z' <> a -> 1 <= m <= n -> exists f, forall fuel steps, f <= fuel -> 2 * n < steps -> exists w k q,
  match_tbom_count fuel steps (z :: beyond) (z' :: bk) (repeat a n) (repeat a m) = Ok (w, k, q, seq 0 (n + 1 - m)) /\ m * (n + 1 - m) <= k.
Proof.
  intros a n m z beyond z' bk Ha Hz Hz' Hm. assert (Nk : repeat a m <> []) by (destruct m; [lia|discriminate]).
  assert (Hk : nonzero_bytes (repeat a m)) by (apply Forall_forall; intros c I; apply repeat_spec in I; now subst c).
  assert (Ht : bytes_below 256 (repeat a n)) by (apply Forall_forall; intros c I; apply repeat_spec in I; subst c; lia).
  assert (Nz : forall y, y <> a -> ~ In y (repeat a n)) by (intros y Hy I; apply repeat_spec in I; contradiction).
  destruct (two_letters (rev (repeat a m)) a a) as (f & o & H); [intros C; apply Nk; now rewrite <- (rev_involutive (repeat a m)), C|now apply rev_bytes|intros c I; apply in_rev in I; apply repeat_spec in I; auto|].
  exists f. intros fuel steps Hf Hs. destruct (turbo_cost fuel steps (repeat a n) (repeat a m) z beyond (z' :: bk) o) as (w & k & q & l & E & Ec & Lw & _ & Kb & _); auto; [rewrite repeat_length; lia|left; eauto|]. rewrite !repeat_length in *.
  destruct (turbo_finds fuel steps (repeat a n) (repeat a m) z beyond z' bk o) as (l' & E' & S1 & S2 & S3); auto; [rewrite repeat_length; lia|]. rewrite E in E'. injection E' as <-.
  assert (El : l = seq 0 (n + 1 - m)).
  { apply sorted_eq; auto; [apply seq_sorted|]. intros x. split; intros I.
    - apply S2 in I. apply filter_In in I. destruct I as (I & O). apply in_seq in I. apply occurs_spec in O; rewrite ?repeat_length in *; [|lia]. apply in_seq. lia.
    - apply in_seq in I. apply S3.
      + apply filter_In. split; [apply in_seq; rewrite repeat_length; lia|]. apply occurs_run; lia.
      + intros (d & D1 & D2 & D3 & _). rewrite occurs_run in D3 by lia. discriminate. }
  subst l. exists w, k, q. split; auto. rewrite seq_length in Kb. lia.
Qed.
