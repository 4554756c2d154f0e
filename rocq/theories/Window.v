(** What TurboBom finds with windows of any size, and the size of its windows. *)
From Coq Require Import List NArith ZArith Arith Bool Lia Sorted.
From Verif Require Import Base Spec4 Spec35 PatternModel PatternProof KmpProof FoModel FoRing FoFree FoArray FoOracle FoProof BomProof TurboSpec TurboProof WindowModel.
Import ListNotations.
Local Open Scope nat_scope.

Section Window.
Variable key text : list N.
Let m := length key.
Let T := fun j => nth j text 0%N.
Let K := fun j => nth j key 0%N.
Let tb := tb key text.
Variable bk : list N.
Variable h : nat.
Hypothesis Hm : 1 <= m.
Hypothesis Hh : h < m.
Hypothesis Hh0 : h = 0 -> m = 1.
Let lolong := lolong key text.
Hypothesis Hkey : nonzero_bytes key.
Hypothesis Htext : bytes_below 256 text.
Variable z : N.
Variable beyond : list N.
Hypothesis Hz : ~ In z text.
Variable o : foracle.
Variable log : list (nat * nat).
Variable lrs : list nat.
Hypothesis Hbuilt : Built (rev key) o log lrs.
Variable next : list Z.
Hypothesis Hnext : filled key next m.
(** either the byte behind the key does not occur in the text or no occurrence is overlapped *)
Hypothesis Hend : (exists z r, bk = z :: r /\ ~ In z text) \/ forall x, x + m <= length text -> occurs_at key text x = true -> ~ overlapped_by h key text x.

Definition wgood (b : nat) (l : list nat) : Prop := StronglySorted lt l /\ (forall x, In x l -> b <= x /\ x + m <= length text /\ occurs_at key text x = true) /\
  forall x, b <= x -> x + m <= length text -> occurs_at key text x = true -> ~ overlapped_by h key text x -> In x l.
Lemma wgood_nil : forall b, length text < b + m -> wgood b [].
Proof. intros b H. split; [constructor|]. split; [intros x []|]. intros x H1 H2. lia. Qed.
Lemma wgood_skip : forall b b' l, b <= b' -> (forall x, b <= x < b' -> x + m <= length text -> occurs_at key text x = true -> overlapped_by h key text x) -> wgood b' l -> wgood b l.
Proof.
  intros b b' l L H (G1 & G2 & G3). split; auto. split; [intros x I; destruct (G2 x I) as (? & ? & ?); repeat split; auto; lia|]. intros x X1 X2 X3 X4. destruct (Nat.le_gt_cases b' x); [auto|]. exfalso. apply X4. apply H; auto.
Qed.
Lemma wgood_cons : forall b b' l, b < b' -> b + m <= length text -> occurs_at key text b = true -> (forall x, b < x < b' -> x + m <= length text -> occurs_at key text x = false) -> wgood b' l -> wgood b (b :: l).
Proof.
  intros b b' l L Lb Ob H (G1 & G2 & G3). split; [|split].
  - constructor; auto. rewrite Forall_forall. intros x I. destruct (G2 x I). lia.
  - intros x [<-|I]; [auto|]. destruct (G2 x I) as (? & ? & ?). repeat split; auto; lia.
  - intros x X1 X2 X3 X4. destruct (Nat.eq_dec x b) as [->|]; [now left|]. right. destruct (Nat.le_gt_cases b' x); [auto|]. rewrite H in X3 by lia. discriminate.
Qed.
Lemma wocc_nth : forall x, x + m <= length text -> occurs_at key text x = true -> forall j, j < m -> K j = T (x + j).
Proof. intros x L O j Hj. apply occurs_spec in O; [|lia]. apply O. exact Hj. Qed.

Lemma wnot_full : forall b c, tb c (c - b) -> occurs_at key text b = false -> b + m <= length text -> c - b < m.
Proof.
  intros b c (T1 & T2 & T3) Ob Lb. fold m in T2. destruct (Nat.eq_dec (c - b) m) as [Ep|]; [|lia]. exfalso. assert (O : occurs_at key text b = true); [|congruence]. apply occurs_spec; [lia|]. split; [exact Lb|]. intros j Hj. fold m in Hj. change (K j = T (b + j)). transitivity (T (c - (c - b) + j)); [apply T3; lia|f_equal; lia].
Qed.
(** one half window: an occurrence that ends inside it is overlapped *)
Lemma wbom_inside : forall b c x, b <= c -> tb c (c - b) -> occurs_at key text b = false -> b < x -> x + m <= length text -> occurs_at key text x = true -> b + m <= length text -> x + m < c + h -> overlapped_by h key text x.
Proof.
  intros b c x Hb Tc Ob Hx Lx Ox Lb Hin. pose proof (wnot_full b c Tc Ob Lb) as Lp. destruct Tc as (T1 & T2 & T3). fold m K T in T2, T3.
  exists (x - b). fold m. split; [lia|]. split; [lia|]. replace (x - (x - b)) with b by lia. split; auto. intros j Hj. change (T (b + j) = K j). symmetry. transitivity (T (c - (c - b) + j)); [apply T3; lia|f_equal; lia].
Qed.

Lemma wbom_loop_ok : forall steps b c, length text < b + m \/ (b <= c <= length text /\ tb c (c - b)) -> length text + length text + 1 <= steps + b + c ->
  exists l, wbom_loop h steps (z :: beyond) (key ++ bk) next o m text (Z.of_nat (b + m) - 1) (Z.of_nat c) = Ok l /\ wgood b l.
Proof.
  induction steps as [|steps IH]; intros b c Inv Hs; cbn [wbom_loop].
  - rewrite (proj2 (Z.ltb_ge _ _)) by (destruct Inv; lia). exists []. split; auto. apply wgood_nil. lia.
  - destruct (Z.ltb_spec (Z.of_nat (b + m) - 1) (Z.of_nat (length text))) as [L|L]; [|exists []; split; auto; apply wgood_nil; lia].
    destruct Inv as [Inv|((Bc & Cl) & Tc)]; [lia|]. assert (Cb : c - b <= m) by apply Tc. rewrite (proj2 (Z.ltb_ge _ 0)) by lia. replace (S (Z.to_nat (Z.of_nat (b + m) - 1))) with (S (b + m - 1)) by lia.
    destruct (back_ok key text Hkey Htext z beyond Hz o log lrs Hbuilt m (S (b + m - 1)) 0 ltac:(lia) ltac:(lia)) as (r & E & R1 & P & Q). rewrite E. cbn [bind]. destruct (Nat.eqb_spec r 0) as [->|Nr].
    + rewrite Nat.sub_0_r in P. pose proof (bw_full key text Hkey beyond o log lrs Hbuilt (S (b + m - 1)) ltac:(fold m; lia) P) as Oc. fold m in Oc. replace (S (b + m - 1) - m) with b in Oc by lia.
      destruct Hnext as (Ln & F). fold m in Ln. rewrite (lget_nth _ next m 0%Z) by lia. cbn [bind]. destruct (F m (le_n _)) as (_ & Fm). destruct (Fm eq_refl) as (F1 & F2). fold m K in F1, F2.
      destruct F1 as [V|(n & V & Lv & Bv)]; [exfalso; apply (F2 0); [lia|lia|apply bord_0]|]. rewrite V.
      destruct (IH (b + (m - n)) (b + m)) as (l & El & Gl).
      * right. split; [lia|]. replace (b + m - (b + (m - n))) with n by lia. apply (tb_bord key text K (b + m) m n); auto. apply occ_tb; [lia|auto|]. fold m. split; [lia|]. now replace (b + m - m) with b by lia.
      * lia.
      * replace (Z.of_nat (b + m) - 1 + Z.of_nat m - Z.of_nat n)%Z with (Z.of_nat (b + (m - n) + m) - 1)%Z by lia. replace (Z.of_nat (b + m) - 1 + 1)%Z with (Z.of_nat (b + m)) by lia. rewrite El. cbn [bind].
        eexists. split; [reflexivity|]. replace (Z.to_nat (Z.of_nat (b + m) - 1 - Z.of_nat m + 1)) with b by lia. apply wgood_cons with (b + (m - n)); auto; try lia.
        intros x Hx Lx. destruct (occurs_at key text x) eqn:Ox; auto. exfalso. apply (F2 (m - (x - b))); [lia|lia|]. split; [lia|]. intros j Hj. pose proof (wocc_nth x Lx Ox j ltac:(lia)) as E1. pose proof (wocc_nth b ltac:(lia) Oc (x - b + j) ltac:(lia)) as E2.
        replace (m - (m - (x - b)) + j) with (x - b + j) by lia. rewrite E1, E2. f_equal. lia.
    + assert (No : forall x, b <= x < b + r -> x + m <= length text -> occurs_at key text x = false).
      { intros x Hx Lx. destruct (occurs_at key text x) eqn:Ox; auto. exfalso. apply Q; [lia|]. apply (occ_factor key text Hkey o log lrs Hbuilt x (b + m - 1) r); fold m; auto; lia. }
      assert (Ob : occurs_at key text b = false) by (apply No; lia). pose proof (wnot_full b c Tc Ob ltac:(lia)) as Lp. cbv zeta.
      replace (Z.of_nat (b + m) - 1 - Z.of_nat m + 1 + Z.of_nat r)%Z with (Z.of_nat (b + r)) by lia. set (kb := Nat.max (b + r) c). replace (Z.max (Z.of_nat (b + r)) (Z.of_nat c)) with (Z.of_nat kb) by (unfold kb; lia). rewrite (proj2 (Z.ltb_ge _ _)) by (unfold kb; lia). rewrite Nat2Z.id.
      
      set (lo := if c <? b + r then b + r else b). set (pre := if c <? b + r then 0 else c - b).
      assert (Epre : (if (Z.of_nat c <? Z.of_nat (b + r))%Z then 0%Z else (Z.of_nat c - (Z.of_nat (b + m) - 1 - Z.of_nat m + 1))%Z) = Z.of_nat pre).
      { unfold pre. destruct (Nat.ltb_spec c (b + r)); destruct (Z.ltb_spec (Z.of_nat c) (Z.of_nat (b + r))); lia. }
      rewrite Epre.
      assert (Lg : lolong lo kb pre).
      { unfold lo, pre, kb. destruct (Nat.ltb_spec c (b + r)).
        - replace (Nat.max (b + r) c) with (b + r) by lia. split; [split; [lia|]; split; [lia|]; intros; lia|]. split; [lia|]. intros; lia.
        - replace (Nat.max (b + r) c) with c by lia. split; [auto|]. split; [lia|]. intros; lia. }
      assert (Ins : forall x, b + r <= x -> x + m <= length text -> occurs_at key text x = true -> x + m < kb + h -> overlapped_by h key text x).
      { intros x X1 X2 X3 X4. destruct (Nat.le_gt_cases (b + r) c) as [Lc|Lc].
        - replace kb with c in X4 by (unfold kb; lia). apply (wbom_inside b c x); auto; lia.
        - exfalso. replace kb with (b + r) in X4 by (unfold kb; lia). lia. }
      set (k := Nat.min h (length text - kb)).
      assert (Ef : firstn h (skipn kb text) = firstn k (skipn kb text)).
      { unfold k. destruct (Nat.le_gt_cases h (length text - kb)); [now rewrite Nat.min_l by lia|]. rewrite Nat.min_r by lia. rewrite firstn_all2 by (rewrite skipn_length; lia). rewrite firstn_all2 by (rewrite skipn_length; lia). reflexivity. }
      rewrite Ef. destruct (tbom_kmp_ok key text bk Hm next lo Hnext k kb pre) as (n & En & (N1 & N2 & N3)).
      * unfold k, kb. lia.
      * unfold lo, kb. destruct (Nat.ltb_spec c (b + r)); lia.
      * auto.
      * intros j Hj Tj Lj. destruct Hend as [(z' & t & Eb & Nz)|Ne].
        -- exists z', t. split; auto. intros ->. apply Nz. apply nth_In. unfold k in Hj. lia.
        -- exfalso. unfold k in Hj. apply occ_tb in Tj; [|lia|auto]. fold m in Tj. destruct Tj as (Lj' & Oj). assert (Xb : b + r <= j - m).
           { destruct (Nat.le_gt_cases (b + r) (j - m)); auto. exfalso. rewrite No in Oj; [discriminate| |lia]. unfold lo in Lj. destruct (Nat.ltb_spec c (b + r)); lia. }
           apply (Ne (j - m)); auto; [lia|]. apply Ins; auto; lia.
      * fold m in En. rewrite En. cbn [bind]. assert (Nm : n <= m) by apply N1. destruct (Nat.le_gt_cases (kb + h) (length text)) as [Lh|Lh].
        -- replace k with h in N1, N2, N3 by (unfold k; lia). assert (Lo : b + r <= kb + h - n \/ (lo = b /\ c >= b + r)).
           { unfold lo in *. destruct (Nat.ltb_spec c (b + r)); lia. }
           assert (Bn : b <= kb + h - n /\ b + c < kb + h - n + (kb + h)) by (destruct (Nat.eq_dec h 0) as [H0|H0]; unfold kb, lo in *; destruct (Nat.ltb_spec c (b + r)); lia).
           destruct (IH (kb + h - n) (kb + h)) as (l & El & Gl); [right; split; [lia|]; now replace (kb + h - (kb + h - n)) with n by lia|lia|].
           replace (Z.of_nat kb + Z.of_nat h - Z.of_nat n + Z.of_nat m - 1)%Z with (Z.of_nat (kb + h - n + m) - 1)%Z by lia. replace (Z.of_nat kb + Z.of_nat h)%Z with (Z.of_nat (kb + h)) by lia. rewrite El. exists l. split; auto.
           apply wgood_skip with (kb + h - n); [lia| |auto]. intros x Hx Lx Ox. destruct (Nat.le_gt_cases (b + r) x) as [Xr|Xr]; [|rewrite No in Ox by lia; discriminate].
           destruct (Nat.lt_ge_cases (x + m) (kb + h)) as [C|C]; [apply Ins; auto|]. exfalso. assert (B' : kb + h - x <= n); [|lia]. apply N3.
           ++ split; [lia|]. fold m. split; [lia|]. intros j Hj. change (K j = T (kb + h - (kb + h - x) + j)). rewrite (wocc_nth x Lx Ox j) by lia. f_equal. lia.
           ++ unfold lo. destruct (Nat.ltb_spec c (b + r)); lia.
        -- exists []. split.
           ++ destruct steps; cbn [wbom_loop]; rewrite (proj2 (Z.ltb_ge _ _)) by lia; reflexivity.
           ++ split; [constructor|]. split; [intros x []|]. intros x X1 X2 X3 X4. exfalso. destruct (Nat.le_gt_cases (b + r) x) as [Xr|Xr]; [|rewrite No in X3 by lia; discriminate]. apply X4. apply Ins; auto. lia.
Qed.
End Window.

Theorem window_exact : forall h fuel steps text key z beyond bk o, key <> [] -> h < length key -> (h = 0 -> length key = 1) -> nonzero_bytes key -> bytes_below 256 text -> ~ In z text -> length text + length text < steps -> fo_build fuel (rev key) = Ok o ->
  (exists z' r, bk = z' :: r /\ ~ In z' text) \/ (forall x, x + length key <= length text -> occurs_at key text x = true -> ~ overlapped_by h key text x) ->
  exists l, match_wbom h fuel steps (z :: beyond) bk text key = Ok l /\ StronglySorted lt l /\ (forall x, In x l -> In x (occurrences key text)) /\ forall x, In x (occurrences key text) -> ~ overlapped_by h key text x -> In x l.
Proof.
  intros h fuel steps text key z beyond bk o Nk Hh Hh0 Hk Ht Hz Hs E Hend. assert (Lk : 1 <= length key) by (destruct key; [congruence|cbn [length]; lia]). unfold match_wbom. rewrite E. cbn [bind].
  destruct (build_Built fuel (rev key) o (rev_bytes key Hk) E) as (log & lrs & B).
  destruct (kmp_make_ok key Lk) as (next & En & F). rewrite En. cbn [bind].
  destruct (wbom_loop_ok key text bk h Lk Hh Hh0 Hk Ht z beyond Hz o log lrs B next F Hend steps 0 0) as (l & El & G1 & G2 & G3); [right; split; [lia|]; split; [lia|]; split; [lia|]; intros; lia|lia|].
  cbn [plus] in El. change (Z.of_nat 0) with 0%Z in El. exists l. split; [exact El|]. split; auto. split.
  - intros x I. destruct (G2 x I) as (_ & L & O). apply filter_In. split; auto. apply in_seq. lia.
  - intros x I No. apply filter_In in I. destruct I as (I & O). apply in_seq in I. apply G3; auto; [lia|]. apply occurs_spec in O; [|lia]. lia.
Qed.

(** ** The float *)
Lemma size_range : forall x, (24 < N.size x)%N -> exists u q r, u = (2 ^ (N.size x - 24))%N /\ q = (x / u)%N /\ r = (x mod u)%N /\ (1 < u)%N /\ x = (q * u + r)%N /\ (r < u)%N /\ (2 ^ 23 <= q < 2 ^ 24)%N.
Proof.
  intros x H. set (k := N.size x) in *. set (u := (2 ^ (k - 24))%N). exists u, (x / u)%N, (x mod u)%N. assert (U : u <> 0%N) by (apply N.pow_nonzero; lia).
  assert (X0 : x <> 0%N) by (intros ->; cbn in H; lia). assert (Lx : (2 ^ (k - 1) <= x < 2 ^ k)%N).
  { unfold k. rewrite N.size_log2 by auto. replace (N.succ (N.log2 x) - 1)%N with (N.log2 x) by lia. apply N.log2_spec. lia. }
  assert (U1 : (1 < u)%N) by (unfold u; apply N.pow_gt_1; lia).
  assert (P1 : (2 ^ (k - 1) = 2 ^ 23 * u)%N) by (unfold u; rewrite <- N.pow_add_r; f_equal; lia). assert (P2 : (2 ^ k = 2 ^ 24 * u)%N) by (unfold u; rewrite <- N.pow_add_r; f_equal; lia).
  pose proof (N.div_mod x u U) as DM. pose proof (N.mod_lt x u U) as ML. split; [reflexivity|]. split; [reflexivity|]. split; [reflexivity|]. split; [exact U1|]. split; [lia|]. split; [exact ML|]. split.
  - apply N.div_le_lower_bound; lia.
  - apply N.div_lt_upper_bound; lia.
Qed.
Lemma float_gap : forall k z q, float_number z -> (24 < k)%N -> (2 ^ 23 <= q)%N -> (z <= q * 2 ^ (k - 24) \/ (q + 1) * 2 ^ (k - 24) <= z)%N.
Proof.
  intros k z q (p & e & Hp & ->) Hk Hq. destruct (N.le_gt_cases (k - 24) e) as [L|L].
  - replace (2 ^ e)%N with (2 ^ (e - (k - 24)) * 2 ^ (k - 24))%N by (rewrite <- N.pow_add_r; f_equal; lia). rewrite N.mul_assoc. set (t := (p * 2 ^ (e - (k - 24)))%N). destruct (N.le_gt_cases t q); [left|right]; apply N.mul_le_mono_r; lia.
  - left. transitivity (2 ^ 24 * 2 ^ e)%N; [apply N.mul_le_mono_r; auto|]. transitivity (2 ^ 23 * 2 ^ (k - 24))%N; [|apply N.mul_le_mono_r; auto]. rewrite <- !N.pow_add_r. apply N.pow_le_mono_r; lia.
Qed.
Theorem float_rounds : forall x, rounds_to x (to_float x).
Proof.
  intros x. unfold to_float. destruct (N.leb_spec (N.size x) 24) as [L|L].
  - split; [exists x, 0%N; split; [|lia]|split; [intros; lia|intros z _ Nz E; exfalso; apply Nz; lia]]. destruct (N.eq_dec x 0) as [->|X0]; [lia|]. rewrite N.size_log2 in L by auto. pose proof (N.log2_spec x ltac:(lia)) as [_ S]. pose proof (N.pow_le_mono_r 2 _ _ ltac:(lia) L). lia.
  - destruct (size_range x L) as (u & q & r & Eu & Eq & Er & U1 & Ex & Hr & Hq). cbv zeta. rewrite <- Eu, <- Eq, <- Er. assert (G : forall z, float_number z -> (z <= q * u \/ (q + 1) * u <= z)%N) by (intros z Hz; rewrite Eu; apply float_gap; auto; lia).
    assert (F0 : float_number (q * u)) by (exists q, (N.size x - 24)%N; rewrite <- Eu; split; [lia|auto]). assert (F1 : float_number ((q + 1) * u)) by (exists (q + 1)%N, (N.size x - 24)%N; rewrite <- Eu; split; [lia|auto]).
    assert (M : ((q + 1) * u = q * u + u)%N) by lia. rewrite M in *. set (w := (q * u)%N) in *.
    destruct (N.ltb_spec (2 * r) u) as [C|C]; [|destruct (N.ltb_spec u (2 * r)) as [C2|C2]].
    + split; auto. split; [intros z Hz; destruct (G z Hz); lia|]. intros z Hz Nz E. exfalso. destruct (G z Hz); lia.
    + split; auto. split; [intros z Hz; destruct (G z Hz); lia|]. intros z Hz Nz E. exfalso. destruct (G z Hz); lia.
    + destruct (N.even q) eqn:Ev.
      * split; auto. split; [intros z Hz; destruct (G z Hz); lia|]. intros z Hz Nz E. apply N.even_spec in Ev. destruct Ev as (t & ->). exists (Z.of_N t), (Z.of_N u). split; [unfold w; lia|]. destruct (G z Hz); lia.
      * split; auto. split; [intros z Hz; destruct (G z Hz); lia|]. intros z Hz Nz E. assert (Od : N.odd q = true) by (rewrite <- N.negb_even, Ev; reflexivity). apply N.odd_spec in Od. destruct Od as (t & ->). exists (Z.of_N t + 1)%Z, (Z.of_N u). split; [unfold w; lia|]. destruct (G z Hz); lia.
Qed.
Lemma float_close : forall x, ((to_float x = x /\ x < 2 ^ 24) \/ (2 ^ 24 <= x /\ to_float x <= x + x / 2 ^ 24 /\ x <= to_float x + x / 2 ^ 24))%N.
Proof.
  intros x. unfold to_float. destruct (N.leb_spec (N.size x) 24) as [L|L].
  - left. split; auto. destruct (N.eq_dec x 0) as [->|X0]; [reflexivity|]. rewrite N.size_log2 in L by auto. pose proof (N.log2_spec x ltac:(lia)) as [_ S]. pose proof (N.pow_le_mono_r 2 _ _ ltac:(lia) L). lia.
  - right. destruct (size_range x L) as (u & q & r & Eu & Eq & Er & U1 & Ex & Hr & Hq). cbv zeta. rewrite <- Eu, <- Eq, <- Er.
    assert (HX : (2 ^ 24 <= x)%N) by nia. split; auto. assert (H2 : exists h, (u = 2 * h)%N). { exists (2 ^ (N.size x - 25))%N. rewrite Eu. rewrite <- N.pow_succ_r'. f_equal. lia. } destruct H2 as (h & Hh).
    assert (D : (h <= x / 2 ^ 24)%N). { apply N.div_le_lower_bound; [lia|]. rewrite Ex, Hh. change (2 ^ 24)%N with (2 ^ 23 * 2)%N. nia. }
    assert (M : ((q + 1) * u = q * u + u)%N) by lia. rewrite M. set (w := (q * u)%N) in *. destruct (N.ltb_spec (2 * r) u) as [C|C]; [|destruct (N.ltb_spec u (2 * r)) as [C2|C2]; [|destruct (N.even q)]]; lia.
Qed.
Lemma window_exact_size : forall m, (N.of_nat m <= 2 ^ 24)%N -> kKmpWindowSize m = m / 2.
Proof.
  intros m H. unfold kKmpWindowSize. assert (E : to_float (N.of_nat m) = N.of_nat m). { destruct (N.eq_dec (N.of_nat m) (2 ^ 24)) as [->|N]; [reflexivity|]. destruct (float_close (N.of_nat m)) as [[E _]|[C _]]; [auto|lia]. }
  rewrite E. rewrite N2Nat.inj_div, Nat2N.id. reflexivity.
Qed.
Lemma window_size : forall m, let h := kKmpWindowSize m in 1 <= m -> h < m /\ (h = 0 -> m = 1) /\ ((N.of_nat m < 2 ^ 24)%N -> h = m / 2) /\ 2 * h <= m + N.to_nat (N.of_nat m / 2 ^ 24) /\ m <= 2 * h + 1 + N.to_nat (N.of_nat m / 2 ^ 24).
Proof.
  intros m h Hm. assert (D2 : forall x, (2 * (x / 2) <= x <= 2 * (x / 2) + 1)%N) by (intros x; pose proof (N.div_mod x 2 ltac:(lia)); pose proof (N.mod_lt x 2 ltac:(lia)); lia).
  unfold h, kKmpWindowSize. specialize (D2 (to_float (N.of_nat m))). set (w := (to_float (N.of_nat m) / 2)%N) in *. split; [|split; [|split; [intros H; apply window_exact_size; lia|]]]; destruct (float_close (N.of_nat m)) as [[E C]|(C & A & B)].
  - lia.
  - assert (N.of_nat m / 2 ^ 24 <= N.of_nat m / 2)%N by (apply N.div_le_compat_l; lia). pose proof (N.mul_div_le (N.of_nat m) 2 ltac:(lia)). lia.
  - lia.
  - assert (N.of_nat m / 2 ^ 24 <= N.of_nat m / 2)%N by (apply N.div_le_compat_l; lia). pose proof (N.mul_div_le (N.of_nat m) 2 ltac:(lia)). lia.
  - rewrite E in D2. lia.
  - lia.
Qed.
Lemma wbom_tbom : forall fuel beyond mem next o m text back critpos, wbom_loop (Nat.div2 m) fuel beyond mem next o m text back critpos = tbom_loop fuel beyond mem next o m text back critpos.
Proof.
  induction fuel as [|fuel IH]; intros; cbn [wbom_loop tbom_loop]; [reflexivity|]. destruct (_ <? _)%Z; [|reflexivity]. destruct (_ <? 0)%Z; [reflexivity|]. destruct (bom_back _ _ _ _ _ _) as [r| | |]; cbn [bind]; auto. cbv zeta. destruct (r =? 0).
  - destruct (lget next m); cbn [bind]; auto. rewrite IH. reflexivity.
  - destruct (_ <? _)%Z; [reflexivity|]. destruct (tbom_kmp _ _ _ _ _); cbn [bind]; auto.
Qed.
Theorem float_same : forall fuel steps beyond bk text key, (N.of_nat (length key) <= 2 ^ 24)%N -> match_fbom fuel steps beyond bk text key = match_tbom fuel steps beyond bk text key.
Proof.
  intros. unfold match_fbom, match_wbom, match_tbom. rewrite window_exact_size by auto. rewrite <- Nat.div2_div. destruct (fo_build fuel (rev key)); cbn [bind]; auto. destruct (kmp_make key); cbn [bind]; auto. apply wbom_tbom.
Qed.
Theorem float_exact : forall fuel steps text key z beyond bk o, key <> [] -> nonzero_bytes key -> bytes_below 256 text -> ~ In z text -> length text + length text < steps -> fo_build fuel (rev key) = Ok o ->
  (exists z' r, bk = z' :: r /\ ~ In z' text) \/ (forall x, x + length key <= length text -> occurs_at key text x = true -> ~ overlapped_by (kKmpWindowSize (length key)) key text x) ->
  exists l, match_fbom fuel steps (z :: beyond) bk text key = Ok l /\ StronglySorted lt l /\ (forall x, In x l -> In x (occurrences key text)) /\
    forall x, In x (occurrences key text) -> ~ overlapped_by (kKmpWindowSize (length key)) key text x -> In x l.
Proof.
  intros fuel steps text key z beyond bk o Nk Hk Ht Hz Hs E He. assert (L : 1 <= length key) by (destruct key; [congruence|cbn [length]; lia]). destruct (window_size (length key) L) as (W1 & W2 & _).
  unfold match_fbom. apply window_exact with o; auto.
Qed.
