(** What TurboBom finds. *)
From Coq Require Import List NArith ZArith Arith Bool Lia Sorted.
From Verif Require Import Base Spec4 PatternModel PatternProof KmpProof FoModel FoRing FoFree FoArray FoOracle FoProof BomProof TurboSpec.
Import ListNotations.
Local Open Scope nat_scope.

Section Turbo.
Variable key text : list N.
Let m := length key.
Let T := fun j => nth j text 0%N.
Let K := fun j => nth j key 0%N.
Let tb := tb key text.
Variable bk : list N.
Hypothesis Hm : 1 <= m.

(** the longest prefix of the key that ends at i and begins at lo or later *)
Definition lolong (lo i b : nat) : Prop := tb i b /\ lo + b <= i /\ forall b', tb i b' -> lo + b' <= i -> b' <= b.
Definition ends_safely (i : nat) : Prop := exists z r, bk = z :: r /\ z <> T i.

Lemma kmp_back_step : forall next i pos, filled key next m -> i < length text -> tb i pos -> (pos = m -> ends_safely i) ->
  exists r, kmp_back (S m) (key ++ bk) next (T i) (Z.of_nat pos) = Ok r /\ ((r = -1)%Z \/ exists b, r = Z.of_nat b /\ b < m /\ bord K pos b /\ K b = T i) /\ (forall b, b < m -> (r < Z.of_nat b)%Z -> bord K pos b -> K b <> T i).
Proof.
  intros next i pos (Ln & F) Hi Tp Safe. assert (Lp : pos <= m) by apply Tp.
  assert (Small : forall f n, n < f -> n < m -> exists r, kmp_back f (key ++ bk) next (T i) (Z.of_nat n) = Ok r /\ landing K n (T i) r).
  { intros f n Hf Hn. destruct (kmp_back_ok K (key ++ bk) next (T i) f n) as (r & Er & R); auto.
    - intros j Hj. rewrite app_length. split; [fold m; lia|]. rewrite app_nth1 by (fold m; lia). reflexivity.
    - intros j Hj. fold m in Ln. split; [lia|]. apply F; fold m; lia.
    - exists r. auto. }
  destruct (Nat.eq_dec pos m) as [->|Np].
  - destruct (Safe eq_refl) as (z & t & Eb & Nz). cbn [kmp_back]. rewrite (proj2 (Z.eqb_neq _ _)) by lia. rewrite Nat2Z.id. rewrite (lget_nth _ _ m 0%N) by (rewrite app_length, Eb; cbn [length]; fold m; lia). cbn [bind].
    assert (En : nth m (key ++ bk) 0%N = z) by (rewrite app_nth2 by (fold m; lia); fold m; rewrite Nat.sub_diag, Eb; reflexivity). rewrite En. rewrite (proj2 (N.eqb_neq _ _)) by auto.
    fold m in Ln. rewrite (lget_nth _ next m 0%Z) by lia. cbn [bind]. destruct (F m (le_n _)) as (_ & Fm). destruct (Fm eq_refl) as (F1 & F2). fold K in F1, F2. fold m in F1, F2. destruct F1 as [V|(b & V & Lb & Bb)]; rewrite V in *.
    + exists (-1)%Z. split; [destruct m; reflexivity|]. split; auto. intros b Lb Hb B. exfalso. apply (F2 b); auto.
    + destruct (Small m b Lb Lb) as (r & Er & (R1 & R2)). exists r. split; auto. split.
      * destruct R1 as [R1|(b' & E1 & E2 & E3)]; auto. right. exists b'. split; auto. pose proof (proj1 E2). split; [lia|]. split; auto. now apply bord_trans with b.
      * intros b' Lb' Hb' B'. destruct (Nat.le_gt_cases b' b); [|exfalso; apply (F2 b'); auto; lia]. apply R2; auto. now apply bord_down with m.
  - destruct (Small (S m) pos ltac:(lia) ltac:(lia)) as (r & Er & (R1 & R2)). exists r. split; auto. split.
    + destruct R1 as [R1|(b' & E1 & E2 & E3)]; auto. right. exists b'. pose proof (proj1 E2). split; auto. split; [lia|]. auto.
    + intros b' Lb' Hb' B'. auto.
Qed.
Lemma kmp_step : forall next lo i pos, filled key next m -> i < length text -> lolong lo i pos -> lo <= i -> (pos = m -> ends_safely i) ->
  exists p', (do r <- kmp_back (S m) (key ++ bk) next (T i) (Z.of_nat pos); Ok (r + 1)%Z) = Ok (Z.of_nat p') /\ lolong lo (S i) p'.
Proof.
  intros next lo i pos F Hi (Tp & Lo & Mx) Hlo Safe. destruct (kmp_back_step next i pos F Hi Tp Safe) as (r & Er & R1 & R2). rewrite Er. cbn [bind].
  assert (TB : forall b, b <= pos /\ tb i b <-> bord K pos b) by (intros b; apply (tb_bord key text K i pos b); auto).
  assert (Up : forall b', tb (S i) (S b') -> lo + b' <= i -> bord K pos b' /\ b' < m /\ K b' = T i).
  { intros b' B' L'. apply tb_S in B'. destruct B' as (B1 & B2 & B3). split; auto. apply TB. split; auto. }
  destruct R1 as [->|(b & -> & Lb & Bb & Kb)].
  - exists 0. split; auto. split; [split; [lia|]; split; [lia|]; intros; lia|]. split; [lia|]. intros [|b'] B' L'; auto. destruct (Up b' B' ltac:(lia)) as (U1 & U2 & U3). exfalso. apply (R2 b'); auto. lia.
  - exists (S b). split; [do 2 f_equal; lia|]. pose proof (proj1 Bb) as Lbp. split; [|split; [lia|]].
    + apply tb_S. split; auto. apply TB in Bb. apply Bb.
    + intros [|b'] B' L'; [lia|]. destruct (Up b' B' ltac:(lia)) as (U1 & U2 & U3). destruct (Nat.le_gt_cases b' b); [lia|]. exfalso. apply (R2 b'); auto. lia.
Qed.
Lemma tbom_kmp_ok : forall next lo, filled key next m -> forall k i pos, i + k <= length text -> lo <= i -> lolong lo i pos -> (forall j, i <= j < i + k -> tb j m -> lo + m <= j -> ends_safely j) ->
  exists p', tbom_kmp (key ++ bk) m next (firstn k (skipn i text)) (Z.of_nat pos) = Ok (Z.of_nat p') /\ lolong lo (i + k) p'.
Proof.
  intros next lo F. induction k as [|k IH]; intros i pos Hk Hlo Lg Safe.
  - exists pos. rewrite Nat.add_0_r. split; auto.
  - rewrite (skipn_cons' text i) by lia. cbn [firstn tbom_kmp]. destruct (kmp_step next lo i pos F ltac:(lia) Lg Hlo) as (p & Ep & Lp).
    { intros ->. apply (Safe i); [lia|apply Lg|]. apply Lg. }
    fold (T i). apply bind_Ok_inv in Ep. destruct Ep as (r & Er & Ep). rewrite Er. cbn [bind]. injection Ep as Ep. rewrite Ep. destruct (IH (S i) p ltac:(lia) ltac:(lia) Lp) as (p' & E & L'); [intros; apply Safe; auto; lia|]. exists p'. split; auto. now replace (i + S k) with (S i + k) by lia.
Qed.

Hypothesis Hkey : nonzero_bytes key.
Hypothesis Htext : bytes_below 256 text.
Variable z : N.
Variable beyond : list N.
Hypothesis Hz : ~ In z text.
Variable o : foracle.
Variable log : list (nat * nat).
Variable lrs : list nat.
Hypothesis Hbuilt : Built (rev key) o log lrs.
Variable next : list Z.
Hypothesis Hnext : filled key next m.
(** either the byte behind the key does not occur in the text or no occurrence is overlapped *)
Hypothesis Hend : (exists z r, bk = z :: r /\ ~ In z text) \/ forall x, x + m <= length text -> occurs_at key text x = true -> ~ overlapped key text x.

Definition good (b : nat) (l : list nat) : Prop := StronglySorted lt l /\ (forall x, In x l -> b <= x /\ x + m <= length text /\ occurs_at key text x = true) /\
  forall x, b <= x -> x + m <= length text -> occurs_at key text x = true -> ~ overlapped key text x -> In x l.
Lemma good_nil : forall b, length text < b + m -> good b [].
Proof. intros b H. split; [constructor|]. split; [intros x []|]. intros x H1 H2. lia. Qed.
Lemma good_skip : forall b b' l, b <= b' -> (forall x, b <= x < b' -> x + m <= length text -> occurs_at key text x = true -> overlapped key text x) -> good b' l -> good b l.
Proof.
  intros b b' l L H (G1 & G2 & G3). split; auto. split; [intros x I; destruct (G2 x I) as (? & ? & ?); repeat split; auto; lia|]. intros x X1 X2 X3 X4. destruct (Nat.le_gt_cases b' x); [auto|]. exfalso. apply X4. apply H; auto.
Qed.
Lemma good_cons : forall b b' l, b < b' -> b + m <= length text -> occurs_at key text b = true -> (forall x, b < x < b' -> x + m <= length text -> occurs_at key text x = false) -> good b' l -> good b (b :: l).
Proof.
  intros b b' l L Lb Ob H (G1 & G2 & G3). split; [|split].
  - constructor; auto. rewrite Forall_forall. intros x I. destruct (G2 x I). lia.
  - intros x [<-|I]; [auto|]. destruct (G2 x I) as (? & ? & ?). repeat split; auto; lia.
  - intros x X1 X2 X3 X4. destruct (Nat.eq_dec x b) as [->|]; [now left|]. right. destruct (Nat.le_gt_cases b' x); [auto|]. rewrite H in X3 by lia. discriminate.
Qed.
Lemma occ_nth : forall x, x + m <= length text -> occurs_at key text x = true -> forall j, j < m -> K j = T (x + j).
Proof. intros x L O j Hj. apply occurs_spec in O; [|lia]. apply O. exact Hj. Qed.

Lemma not_full : forall b c, tb c (c - b) -> occurs_at key text b = false -> b + m <= length text -> c - b < m.
Proof.
  intros b c (T1 & T2 & T3) Ob Lb. fold m in T2. destruct (Nat.eq_dec (c - b) m) as [Ep|]; [|lia]. exfalso. assert (O : occurs_at key text b = true); [|congruence]. apply occurs_spec; [lia|]. split; [exact Lb|]. intros j Hj. fold m in Hj. change (K j = T (b + j)). transitivity (T (c - (c - b) + j)); [apply T3; lia|f_equal; lia].
Qed.
(** one half window: an occurrence that ends inside it is overlapped *)
Lemma inside_overlapped : forall b c x, b <= c -> tb c (c - b) -> occurs_at key text b = false -> b < x -> x + m <= length text -> occurs_at key text x = true -> b + m <= length text -> x + m < c + Nat.div2 m -> overlapped key text x.
Proof.
  intros b c x Hb Tc Ob Hx Lx Ox Lb Hin. pose proof (not_full b c Tc Ob Lb) as Lp. destruct Tc as (T1 & T2 & T3). fold m K T in T2, T3. rewrite Nat.div2_div in Hin. pose proof (Nat.mul_div_le m 2 ltac:(lia)) as D2.
  exists (x - b). fold m. split; [lia|]. split; [lia|]. replace (x - (x - b)) with b by lia. split; auto. intros j Hj. change (T (b + j) = K j). symmetry. transitivity (T (c - (c - b) + j)); [apply T3; lia|f_equal; lia].
Qed.

Lemma tbom_loop_ok : forall steps b c, length text < b + m \/ (b <= c <= length text /\ tb c (c - b)) -> length text + length text + 1 <= steps + b + c ->
  exists l, tbom_loop steps (z :: beyond) (key ++ bk) next o m text (Z.of_nat (b + m) - 1) (Z.of_nat c) = Ok l /\ good b l.
Proof.
  induction steps as [|steps IH]; intros b c Inv Hs; cbn [tbom_loop].
  - rewrite (proj2 (Z.ltb_ge _ _)) by (destruct Inv; lia). exists []. split; auto. apply good_nil. lia.
  - destruct (Z.ltb_spec (Z.of_nat (b + m) - 1) (Z.of_nat (length text))) as [L|L]; [|exists []; split; auto; apply good_nil; lia].
    destruct Inv as [Inv|((Bc & Cl) & Tc)]; [lia|]. assert (Cb : c - b <= m) by apply Tc. rewrite (proj2 (Z.ltb_ge _ 0)) by lia. replace (S (Z.to_nat (Z.of_nat (b + m) - 1))) with (S (b + m - 1)) by lia.
    destruct (back_ok key text Hkey Htext z beyond Hz o log lrs Hbuilt m (S (b + m - 1)) 0 ltac:(lia) ltac:(lia)) as (r & E & R1 & P & Q). rewrite E. cbn [bind]. destruct (Nat.eqb_spec r 0) as [->|Nr].
    + rewrite Nat.sub_0_r in P. pose proof (bw_full key text Hkey beyond o log lrs Hbuilt (S (b + m - 1)) ltac:(fold m; lia) P) as Oc. fold m in Oc. replace (S (b + m - 1) - m) with b in Oc by lia.
      destruct Hnext as (Ln & F). fold m in Ln. rewrite (lget_nth _ next m 0%Z) by lia. cbn [bind]. destruct (F m (le_n _)) as (_ & Fm). destruct (Fm eq_refl) as (F1 & F2). fold m K in F1, F2.
      destruct F1 as [V|(n & V & Lv & Bv)]; [exfalso; apply (F2 0); [lia|lia|apply bord_0]|]. rewrite V.
      destruct (IH (b + (m - n)) (b + m)) as (l & El & Gl).
      * right. split; [lia|]. replace (b + m - (b + (m - n))) with n by lia. apply (tb_bord key text K (b + m) m n); auto. apply occ_tb; [lia|auto|]. fold m. split; [lia|]. now replace (b + m - m) with b by lia.
      * lia.
      * replace (Z.of_nat (b + m) - 1 + Z.of_nat m - Z.of_nat n)%Z with (Z.of_nat (b + (m - n) + m) - 1)%Z by lia. replace (Z.of_nat (b + m) - 1 + 1)%Z with (Z.of_nat (b + m)) by lia. rewrite El. cbn [bind].
        eexists. split; [reflexivity|]. replace (Z.to_nat (Z.of_nat (b + m) - 1 - Z.of_nat m + 1)) with b by lia. apply good_cons with (b + (m - n)); auto; try lia.
        intros x Hx Lx. destruct (occurs_at key text x) eqn:Ox; auto. exfalso. apply (F2 (m - (x - b))); [lia|lia|]. split; [lia|]. intros j Hj. pose proof (occ_nth x Lx Ox j ltac:(lia)) as E1. pose proof (occ_nth b ltac:(lia) Oc (x - b + j) ltac:(lia)) as E2.
        replace (m - (m - (x - b)) + j) with (x - b + j) by lia. rewrite E1, E2. f_equal. lia.
    + assert (No : forall x, b <= x < b + r -> x + m <= length text -> occurs_at key text x = false).
      { intros x Hx Lx. destruct (occurs_at key text x) eqn:Ox; auto. exfalso. apply Q; [lia|]. apply (occ_factor key text Hkey o log lrs Hbuilt x (b + m - 1) r); fold m; auto; lia. }
      assert (Ob : occurs_at key text b = false) by (apply No; lia). pose proof (not_full b c Tc Ob ltac:(lia)) as Lp. cbv zeta.
      replace (Z.of_nat (b + m) - 1 - Z.of_nat m + 1 + Z.of_nat r)%Z with (Z.of_nat (b + r)) by lia. set (kb := Nat.max (b + r) c). replace (Z.max (Z.of_nat (b + r)) (Z.of_nat c)) with (Z.of_nat kb) by (unfold kb; lia). rewrite (proj2 (Z.ltb_ge _ _)) by (unfold kb; lia). rewrite Nat2Z.id.
      set (h := Nat.div2 m). assert (Hh : h < m) by (unfold h; rewrite Nat.div2_div; apply Nat.div_lt; lia).
      set (lo := if c <? b + r then b + r else b). set (pre := if c <? b + r then 0 else c - b).
      assert (Epre : (if (Z.of_nat c <? Z.of_nat (b + r))%Z then 0%Z else (Z.of_nat c - (Z.of_nat (b + m) - 1 - Z.of_nat m + 1))%Z) = Z.of_nat pre).
      { unfold pre. destruct (Nat.ltb_spec c (b + r)); destruct (Z.ltb_spec (Z.of_nat c) (Z.of_nat (b + r))); lia. }
      rewrite Epre.
      assert (Lg : lolong lo kb pre).
      { unfold lo, pre, kb. destruct (Nat.ltb_spec c (b + r)).
        - replace (Nat.max (b + r) c) with (b + r) by lia. split; [split; [lia|]; split; [lia|]; intros; lia|]. split; [lia|]. intros; lia.
        - replace (Nat.max (b + r) c) with c by lia. split; [auto|]. split; [lia|]. intros; lia. }
      assert (Ins : forall x, b + r <= x -> x + m <= length text -> occurs_at key text x = true -> x + m < kb + h -> overlapped key text x).
      { intros x X1 X2 X3 X4. destruct (Nat.le_gt_cases (b + r) c) as [Lc|Lc].
        - replace kb with c in X4 by (unfold kb; lia). apply (inside_overlapped b c x); auto; lia.
        - exfalso. replace kb with (b + r) in X4 by (unfold kb; lia). lia. }
      set (k := Nat.min h (length text - kb)).
      assert (Ef : firstn h (skipn kb text) = firstn k (skipn kb text)).
      { unfold k. destruct (Nat.le_gt_cases h (length text - kb)); [now rewrite Nat.min_l by lia|]. rewrite Nat.min_r by lia. rewrite firstn_all2 by (rewrite skipn_length; lia). rewrite firstn_all2 by (rewrite skipn_length; lia). reflexivity. }
      rewrite Ef. destruct (tbom_kmp_ok next lo Hnext k kb pre) as (n & En & (N1 & N2 & N3)).
      * unfold k, kb. lia.
      * unfold lo, kb. destruct (Nat.ltb_spec c (b + r)); lia.
      * auto.
      * intros j Hj Tj Lj. destruct Hend as [(z' & t & Eb & Nz)|Ne].
        -- exists z', t. split; auto. intros ->. apply Nz. apply nth_In. unfold k in Hj. lia.
        -- exfalso. unfold k in Hj. apply occ_tb in Tj; [|lia|auto]. fold m in Tj. destruct Tj as (Lj' & Oj). assert (Xb : b + r <= j - m).
           { destruct (Nat.le_gt_cases (b + r) (j - m)); auto. exfalso. rewrite No in Oj; [discriminate| |lia]. unfold lo in Lj. destruct (Nat.ltb_spec c (b + r)); lia. }
           apply (Ne (j - m)); auto; [lia|]. apply Ins; auto; lia.
      * rewrite En. cbn [bind]. assert (Nm : n <= m) by apply N1. destruct (Nat.le_gt_cases (kb + h) (length text)) as [Lh|Lh].
        -- replace k with h in N1, N2, N3 by (unfold k; lia). assert (Lo : b + r <= kb + h - n \/ (lo = b /\ c >= b + r)).
           { unfold lo in *. destruct (Nat.ltb_spec c (b + r)); lia. }
           assert (Bn : b <= kb + h - n /\ b + c < kb + h - n + (kb + h)) by (assert (h = 0 -> m = 1) by (intros H0; unfold h in H0; rewrite Nat.div2_div in H0; apply Nat.div_small_iff in H0; lia); destruct (Nat.eq_dec h 0) as [H0|H0]; unfold kb, lo in *; destruct (Nat.ltb_spec c (b + r)); lia).
           destruct (IH (kb + h - n) (kb + h)) as (l & El & Gl); [right; split; [lia|]; now replace (kb + h - (kb + h - n)) with n by lia|lia|].
           replace (Z.of_nat kb + Z.of_nat h - Z.of_nat n + Z.of_nat m - 1)%Z with (Z.of_nat (kb + h - n + m) - 1)%Z by lia. replace (Z.of_nat kb + Z.of_nat h)%Z with (Z.of_nat (kb + h)) by lia. rewrite El. exists l. split; auto.
           apply good_skip with (kb + h - n); [lia| |auto]. intros x Hx Lx Ox. destruct (Nat.le_gt_cases (b + r) x) as [Xr|Xr]; [|rewrite No in Ox by lia; discriminate].
           destruct (Nat.lt_ge_cases (x + m) (kb + h)) as [C|C]; [apply Ins; auto|]. exfalso. assert (B' : kb + h - x <= n); [|lia]. apply N3.
           ++ split; [lia|]. fold m. split; [lia|]. intros j Hj. change (K j = T (kb + h - (kb + h - x) + j)). rewrite (occ_nth x Lx Ox j) by lia. f_equal. lia.
           ++ unfold lo. destruct (Nat.ltb_spec c (b + r)); lia.
        -- exists []. split.
           ++ destruct steps; cbn [tbom_loop]; rewrite (proj2 (Z.ltb_ge _ _)) by lia; reflexivity.
           ++ split; [constructor|]. split; [intros x []|]. intros x X1 X2 X3 X4. exfalso. destruct (Nat.le_gt_cases (b + r) x) as [Xr|Xr]; [|rewrite No in X3 by lia; discriminate]. apply X4. apply Ins; auto. lia.
Qed.
End Turbo.

Theorem turbo_exact : forall fuel steps text key z beyond bk o, key <> [] -> nonzero_bytes key -> bytes_below 256 text -> ~ In z text -> length text + length text < steps -> fo_build fuel (rev key) = Ok o ->
  (exists z' r, bk = z' :: r /\ ~ In z' text) \/ (forall x, x + length key <= length text -> occurs_at key text x = true -> ~ overlapped key text x) ->
  exists l, match_tbom fuel steps (z :: beyond) bk text key = Ok l /\ StronglySorted lt l /\ (forall x, In x l -> In x (occurrences key text)) /\ forall x, In x (occurrences key text) -> ~ overlapped key text x -> In x l.
Proof.
  intros fuel steps text key z beyond bk o Nk Hk Ht Hz Hs E Hend. assert (Lk : 1 <= length key) by (destruct key; [congruence|cbn [length]; lia]). unfold match_tbom. rewrite E. cbn [bind].
  destruct (build_Built fuel (rev key) o (rev_bytes key Hk) E) as (log & lrs & B).
  destruct (kmp_make_ok key Lk) as (next & En & F). rewrite En. cbn [bind].
  destruct (tbom_loop_ok key text bk Lk Hk Ht z beyond Hz o log lrs B next F Hend steps 0 0) as (l & El & G1 & G2 & G3); [right; split; [lia|]; split; [lia|]; split; [lia|]; intros; lia|lia|].
  cbn [plus] in El. change (Z.of_nat 0) with 0%Z in El. exists l. split; [exact El|]. split; auto. split.
  - intros x I. destruct (G2 x I) as (_ & L & O). apply filter_In. split; auto. apply in_seq. lia.
  - intros x I No. apply filter_In in I. destruct I as (I & O). apply in_seq in I. apply G3; auto; [lia|]. apply occurs_spec in O; [|lia]. lia.
Qed.
Lemma sorted_eq : forall a b : list nat, StronglySorted lt a -> StronglySorted lt b -> (forall x, In x a <-> In x b) -> a = b.
Proof.
  induction a as [|x a IH]; intros b Ha Hb H.
  - destruct b as [|y b]; auto. exfalso. apply (H y). now left.
  - apply StronglySorted_inv in Ha. destruct Ha as (Ha & Fa). rewrite Forall_forall in Fa. destruct b as [|y b]; [exfalso; apply (H x); now left|]. apply StronglySorted_inv in Hb. destruct Hb as (Hb & Fb). rewrite Forall_forall in Fb.
    assert (x = y) by (destruct (proj1 (H x) (or_introl eq_refl)) as [|I1]; destruct (proj2 (H y) (or_introl eq_refl)) as [|I2]; auto; specialize (Fb _ I1); specialize (Fa _ I2); lia). subst y. f_equal. apply IH; auto. intros w. split; intros I.
    + destruct (proj1 (H w) (or_intror I)) as [<-|]; auto. specialize (Fa _ I). lia.
    + destruct (proj2 (H w) (or_intror I)) as [<-|]; auto. specialize (Fb _ I). lia.
Qed.
Lemma seq_sorted : forall n i, StronglySorted lt (seq i n).
Proof. induction n as [|n IH]; intros i; cbn [seq]; constructor; auto. rewrite Forall_forall. intros x I. apply in_seq in I. lia. Qed.
Lemma filter_sorted : forall (p : nat -> bool) l, StronglySorted lt l -> StronglySorted lt (filter p l).
Proof.
  intros p. induction l as [|x l IH]; intros H; cbn [filter]; [constructor|]. apply StronglySorted_inv in H. destruct H as (H & F). destruct (p x); auto. constructor; auto. rewrite Forall_forall in *. intros y I. apply filter_In in I. apply F. tauto.
Qed.
Lemma no_period_not_overlapped : forall key text x, no_short_period key -> x + length key <= length text -> occurs_at key text x = true -> ~ overlapped key text x.
Proof.
  intros key text x Np L O (d & (D1 & D2) & D3 & D4 & D5). destruct (Np d D1 D3) as (j & Hj & Ne). apply Ne. rewrite <- (D5 (d + j)) by lia. apply occurs_spec in O; [|lia]. destruct O as (_ & O). rewrite (O j) by lia. f_equal. lia.
Qed.
Theorem turbo_finds : forall fuel steps text key z beyond z' bk o, key <> [] -> nonzero_bytes key -> bytes_below 256 text -> ~ In z text -> ~ In z' text -> length text + length text < steps -> fo_build fuel (rev key) = Ok o ->
  exists l, match_tbom fuel steps (z :: beyond) (z' :: bk) text key = Ok l /\ StronglySorted lt l /\ (forall x, In x l -> In x (occurrences key text)) /\ forall x, In x (occurrences key text) -> ~ overlapped key text x -> In x l.
Proof. intros. eapply turbo_exact; eauto. Qed.
Theorem turbo_complete : forall fuel steps text key z beyond bk o, key <> [] -> nonzero_bytes key -> bytes_below 256 text -> ~ In z text -> length text + length text < steps -> fo_build fuel (rev key) = Ok o -> no_short_period key ->
  match_tbom fuel steps (z :: beyond) bk text key = Ok (occurrences key text).
Proof.
  intros fuel steps text key z beyond bk o Nk Hk Ht Hz Hs B Np. assert (NO : forall x, x + length key <= length text -> occurs_at key text x = true -> ~ overlapped key text x) by (intros; now apply no_period_not_overlapped).
  destruct (turbo_exact fuel steps text key z beyond bk o Nk Hk Ht Hz Hs B (or_intror NO)) as (l & E & S1 & S2 & S3). rewrite E. f_equal. apply sorted_eq; auto; [apply filter_sorted, seq_sorted|]. intros x. split; auto. intros I. apply S3; auto. apply filter_In in I. destruct I as (I & O). apply in_seq in I. apply NO; auto. apply occurs_spec in O; [|lia]. lia.
Qed.
Lemma short_no_period : forall key, length key < 6 -> no_short_period key.
Proof. intros key L d D1 D2. exfalso. assert (length key / 2 <= 5 / 2) by (apply Nat.div_le_mono; lia). change (5 / 2) with 2 in H. lia. Qed.
Theorem turbo_short : forall text key z beyond bk, key <> [] -> length key < 6 -> nonzero_bytes key -> bytes_below 256 text -> ~ In z text ->
  exists n, forall fuel steps, n <= fuel -> length text + length text < steps -> match_tbom fuel steps (z :: beyond) bk text key = Ok (occurrences key text).
Proof.
  intros text key z beyond bk Nk L6 Hk Ht Hz. pose proof (rev_bytes key Hk) as Hr. assert (Lk : 1 <= length key) by (destruct key; [congruence|cbn [length]; lia]). destruct (build_terminates (rev key)) as (n & o & H); auto.
  - intros C. apply Nk. rewrite <- (rev_involutive key), C. reflexivity.
  - rewrite rev_length. assert (Hl : letters (rev key) <= length key) by (unfold letters; rewrite <- (rev_length key); apply NoDup_incl_length; [apply NoDup_nodup|intros c I; now apply nodup_In in I]). replace ((length key + 255) / 256) with 1; [|apply (Nat.div_unique _ _ _ (length key - 1)); lia].
    assert ((length key - 2) * (letters (rev key) - 1) <= 3 * 4) by (apply Nat.mul_le_mono; lia). lia.
  - exists n. intros fuel steps Hf Hs. apply turbo_complete with o; auto. now apply short_no_period.
Qed.
