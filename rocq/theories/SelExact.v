(** The portable select inside a word and of SuccinctBitVector: every case. *)
From Coq Require Import List NArith ZArith Lia Bool Arith.
From Verif Require Import Base Spec Spec14 BitUtilModel BitUtilProof BitUtilProof2 BitVectorModel BitVectorProof BitVectorProof2 SuccinctModel SuccinctProof SuccinctProof2 SuccinctProof3.
Import ListNotations.
Local Open Scope N_scope.

Lemma popcnt32_low : forall x, popcnt32 x = N.of_nat (ones_below 32 x - lost_ones x).
Proof.
  intros x. assert (E : popcnt32 x = popcnt32 (x mod 2 ^ 32)).
  { unfold popcnt32. rewrite (N.mod_mod x (2 ^ 32)) by discriminate. reflexivity. }
  assert (L : forall m, m < 2 ^ 32 -> N.land (x mod 2 ^ 32) m = N.land x m).
  { intros. apply N.bits_inj; intro j. rewrite !N.land_spec. destruct (N.lt_ge_cases j 32).
    - now rewrite N.mod_pow2_bits_low.
    - rewrite (testbit_high m 32) by auto. now rewrite !andb_false_r. }
  rewrite E. destruct (popcnt32_value (x mod 2 ^ 32)) as (A & B & H1 & H2 & H3 & H4 & H5 & H6).
  { apply N.mod_upper_bound. discriminate. }
  rewrite H6. change (2 ^ 32) with (2 ^ N.of_nat 32) in H3. rewrite ones_below_mod in H3 by lia.
  rewrite L in H4, H5 by reflexivity. unfold lost_ones.
  destruct (N.eqb_spec (N.land x 0x0F0F0F0F) 0x0F0F0F0F), (N.eqb_spec (N.land x 0xF0F0F0F0) 0xF0F0F0F0); try destruct (Nat.ltb_spec (ones_below 32 x) 31); lia.
Qed.

Lemma lost_le : forall x, (lost_ones x <= ones_below 32 x)%nat.
Proof.
  intros x. 
  assert (L : forall m, m < 2 ^ 32 -> N.land (x mod 2 ^ 32) m = N.land x m).
  { intros. apply N.bits_inj; intro j. rewrite !N.land_spec. destruct (N.lt_ge_cases j 32).
    - now rewrite N.mod_pow2_bits_low.
    - rewrite (testbit_high m 32) by auto. now rewrite !andb_false_r. }
  destruct (popcnt32_value (x mod 2 ^ 32)) as (A & B & H1 & H2 & H3 & H4 & H5 & H6).
  { apply N.mod_upper_bound. discriminate. }
  change (2 ^ 32) with (2 ^ N.of_nat 32) in H3. rewrite ones_below_mod in H3 by lia.
  rewrite L in H4, H5 by reflexivity. unfold lost_ones.
  destruct (N.eqb_spec (N.land x 0x0F0F0F0F) 0x0F0F0F0F), (N.eqb_spec (N.land x 0xF0F0F0F0) 0xF0F0F0F0); try destruct (Nat.ltb_spec (ones_below 32 x) 31); lia.
Qed.

Lemma sel_table_none : forall i x, i < 9 -> x < 256 -> i = 0 \/ N.of_nat (ones_below 8 x) < i ->
  bind (lgetN kLtSel i) (fun row => lgetN row x) = Ok (if i =? 0 then 0 else 8).
Proof.
  intros i x Hi Hx H.
  assert (S : forallb (fun i => forallb (fun x =>
     implb ((i =? 0) || (N.of_nat (ones_below 8 x) <? i))
       (match bind (lgetN kLtSel i) (fun row => lgetN row x) with Ok v => (v =? (if i =? 0 then 0 else 8)) | _ => false end))
     (map N.of_nat (seq 0 256))) (map N.of_nat (seq 0 9)) = true) by (vm_compute; reflexivity).
  pose proof (sweep _ 9 S i Hi) as S1. cbv beta in S1.
  pose proof (sweep _ 256 S1 x Hx) as S2. cbv beta in S2. clear S S1.
  replace ((i =? 0) || (N.of_nat (ones_below 8 x) <? i)) with true in S2 by lia.
  cbv beta iota delta [implb] in S2. destruct (bind _ _) as [v| | |]; try discriminate. apply N.eqb_eq in S2. congruence.
Qed.

(** the two last halvings *)
Definition sel32 (x ret i : N) : res N :=
  let bc := popcnt16 x in
  let '(x, ret, i) := if bc <? i then (N.shiftr x 16, ret + 16, i - bc) else (x, ret, i) in
  let bc := popcnt8 x in
  let '(x, ret, i) := if bc <? i then (N.shiftr x 8, ret + 8, i - bc) else (x, ret, i) in
  do row <- lgetN kLtSel i;
  do v <- lgetN row (N.land x 255);
  Ok (ret + v).

Lemma sel_halves : forall x i, sel x i = if popcnt32 x <? i then sel32 (N.shiftr x 32) 32 (i - popcnt32 x) else sel32 x 0 i.
Proof. intros. unfold sel. destruct (popcnt32 x <? i); reflexivity. Qed.

Lemma sel32_in : forall x ret i, 1 <= i -> i <= N.of_nat (ones_below 32 x) ->
  exists p, (p < 32)%nat /\ sel32 x ret i = Ok (ret + N.of_nat p + 1) /\ N.testbit x (N.of_nat p) = true /\ N.of_nat (ones_below p x) + 1 = i.
Proof.
  intros x ret i H1 H2. unfold sel32. rewrite popcnt16_mod.
  assert (G : forall x i w, 1 <= i -> i <= N.of_nat (ones_below (w + w) x) ->
    exists s, (s = 0 \/ s = w)%nat /\ (forall r : N, (if N.of_nat (ones_below w x) <? i then (N.shiftr x (N.of_nat w), r + N.of_nat w, i - N.of_nat (ones_below w x)) else (x, r, i)) =
       (N.shiftr x (N.of_nat s), r + N.of_nat s, i - N.of_nat (ones_below s x))) /\ 1 <= i - N.of_nat (ones_below s x) /\ i - N.of_nat (ones_below s x) <= N.of_nat (ones_below w (N.shiftr x (N.of_nat s)))).
  { clear. intros x i w H1 H2. rewrite ones_below_add in H2. destruct (N.ltb_spec (N.of_nat (ones_below w x)) i).
    - exists w. split; auto. split; [reflexivity|]. lia.
    - exists 0%nat. split; auto. change (ones_below 0 x) with 0%nat. change (N.of_nat 0) with 0. rewrite N.shiftr_0_r, N.sub_0_r.
      split; [intros; now rewrite N.add_0_r|]. lia. }
  destruct (G x i 16%nat H1 H2) as (s1 & S1 & E1 & A1 & B1). change (N.of_nat 16) with 16 in E1. rewrite E1. cbv iota.
  rewrite popcnt8_mod. set (y := N.shiftr x (N.of_nat s1)) in *. set (i2 := i - N.of_nat (ones_below s1 x)) in *.
  destruct (G y i2 8%nat A1 B1) as (s2 & S2 & E2 & A2 & B2). change (N.of_nat 8) with 8 in E2. rewrite E2. cbv iota. clear E1 E2 G.
  set (z := N.shiftr y (N.of_nat s2)) in *. set (i3 := i2 - N.of_nat (ones_below s2 y)) in *.
  rewrite land255. pose proof (ones_below_le 8 z).
  destruct (sel_table i3 (z mod 256)) as (p & Hp & Ht & Hb & Ho); try lia.
  { change 256 with (2 ^ N.of_nat 8). rewrite ones_below_mod; lia. }
  assert (E : bind (lgetN kLtSel i3) (fun row => bind (lgetN row (z mod 256)) (fun v => Ok (ret + N.of_nat s1 + N.of_nat s2 + v)))
     = bind (bind (lgetN kLtSel i3) (fun row => lgetN row (z mod 256))) (fun v => Ok (ret + N.of_nat s1 + N.of_nat s2 + v))).
  { destruct (lgetN kLtSel i3); reflexivity. }
  rewrite E, Ht. cbn [bind]. clear E Ht.
  exists (s1 + (s2 + p))%nat. split; [lia|]. split; [f_equal; lia|]. split.
  - change 256 with (2 ^ 8) in Hb. rewrite N.mod_pow2_bits_low in Hb by lia. subst z y. rewrite !N.shiftr_spec' in Hb.
    rewrite <- Hb. f_equal. lia.
  - change 256 with (2 ^ N.of_nat 8) in Ho. rewrite ones_below_mod in Ho by lia.
    rewrite ones_below_add. fold y. rewrite ones_below_add. fold z. lia.
Qed.

Lemma sel32_out : forall x ret i, N.of_nat (ones_below 32 x) < i ->
  sel32 x ret i = if i - N.of_nat (ones_below 24 x) <=? 8 then Ok (ret + 32) else UB.
Proof.
  intros x ret i H. unfold sel32. rewrite popcnt16_mod.
  change 32%nat with (16 + (8 + 8))%nat in H. rewrite ones_below_add in H. change (N.of_nat 16) with 16 in H. rewrite ones_below_add in H. change (N.of_nat 8) with 8 in H.
  destruct (N.ltb_spec (N.of_nat (ones_below 16 x)) i); [|lia].
  rewrite popcnt8_mod. set (y := N.shiftr x 16) in *.
  destruct (N.ltb_spec (N.of_nat (ones_below 8 y)) (i - N.of_nat (ones_below 16 x))); [|lia].
  assert (E24 : ones_below 24 x = (ones_below 16 x + ones_below 8 y)%nat).
  { change 24%nat with (16 + 8)%nat. now rewrite ones_below_add. }
  rewrite E24. set (z := N.shiftr y 8) in *.
  replace (i - N.of_nat (ones_below 16 x) - N.of_nat (ones_below 8 y)) with (i - N.of_nat (ones_below 16 x + ones_below 8 y)) by lia.
  set (i3 := i - N.of_nat (ones_below 16 x + ones_below 8 y)).
  rewrite land255.
  assert (E : bind (lgetN kLtSel i3) (fun row => bind (lgetN row (z mod 256)) (fun v => Ok (ret + 16 + 8 + v)))
     = bind (bind (lgetN kLtSel i3) (fun row => lgetN row (z mod 256))) (fun v => Ok (ret + 16 + 8 + v))).
  { destruct (lgetN kLtSel i3); reflexivity. }
  rewrite E. destruct (N.leb_spec i3 8).
  - rewrite sel_table_none; try lia.
    + cbn [bind]. destruct (N.eqb_spec i3 0); [lia|]. f_equal. lia.
    + right. change 256 with (2 ^ N.of_nat 8). rewrite ones_below_mod by lia. lia.
  - assert (U : lgetN kLtSel i3 = UB).
    { unfold lgetN. change (N.of_nat (length kLtSel)) with 9. destruct (N.ltb_spec i3 9); [lia|auto]. }
    rewrite U. reflexivity.
Qed.

Lemma sel_zero : forall x, sel x 0 = Ok 0.
Proof.
  intros. rewrite sel_halves. destruct (N.ltb_spec (popcnt32 x) 0); [lia|]. unfold sel32.
  destruct (N.ltb_spec (popcnt16 x) 0); [lia|]. destruct (N.ltb_spec (popcnt8 x) 0); [lia|]. rewrite land255.
  pose proof (sel_table_none 0 (x mod 256)) as T. destruct (lgetN kLtSel 0) as [row| | |]; cbn [bind] in *;
    try (discriminate (T ltac:(lia) ltac:(apply N.mod_upper_bound; discriminate) (or_introl eq_refl))).
  rewrite T; [reflexivity|lia|apply N.mod_upper_bound; discriminate|auto].
Qed.

Lemma sel_exact : forall x i, 1 <= i ->
  let c := N.of_nat (ones_below 32 x - lost_ones x) in
  let h := N.shiftr x 32 in
  if i <=? c then exists p, (p < 32)%nat /\ sel x i = Ok (N.of_nat p + 1) /\ N.testbit x (N.of_nat p) = true /\ N.of_nat (ones_below p x) + 1 = i
  else if i - c <=? N.of_nat (ones_below 32 h) then
    exists p, (32 <= p < 64)%nat /\ sel x i = Ok (N.of_nat p + 1) /\ N.testbit x (N.of_nat p) = true /\ N.of_nat (ones_below p x) + 1 = i + N.of_nat (lost_ones x)
  else sel x i = if i - c - N.of_nat (ones_below 24 h) <=? 8 then Ok 64 else UB.
Proof.
  intros x i H c h. rewrite sel_halves, popcnt32_low. fold c. pose proof (lost_le x). destruct (N.leb_spec i c).
  - destruct (N.ltb_spec c i); [lia|]. destruct (sel32_in x 0 i H) as (p & A1 & A2 & A3 & A4); [lia|].
    exists p. rewrite A2. split; auto.
  - destruct (N.ltb_spec c i); [|lia]. fold h. destruct (N.leb_spec (i - c) (N.of_nat (ones_below 32 h))).
    + destruct (sel32_in h 32 (i - c)) as (p & A1 & A2 & A3 & A4); [lia|auto|].
      exists (32 + p)%nat. rewrite A2. split; [lia|]. split; [f_equal; lia|]. split.
      * subst h. rewrite N.shiftr_spec' in A3. rewrite <- A3. f_equal. lia.
      * rewrite ones_below_add. change (N.of_nat 32) with 32. fold h. lia.
    + rewrite sel32_out by auto. reflexivity.
Qed.

Local Open Scope nat_scope.
Lemma select_word : forall selw s l k, sbv_ok s l -> (N.of_nat (length l) < 2 ^ 41)%N ->
  k < R (bv_words (sb_bits s)) (length l) ->
  (sb_tips s = [] \/ tips_ok (bv_words (sb_bits s)) (sb_tips s) (length l / 512 + 1) /\
     k / 512 <= b8 (bv_words (sb_bits s)) (length l / 512) / 512) ->
  exists w, 64 * w < length l /\ R (bv_words (sb_bits s)) (64 * w) <= k < R (bv_words (sb_bits s)) (64 * w + 64) /\
    sb_select selw s k = do r <- selw (nth w (bv_words (sb_bits s)) 0%N) (N.of_nat (k + 1 - R (bv_words (sb_bits s)) (64 * w))); Ok (wsub (N.of_nat (64 * w) + r) 1).
Proof.
  intros selw s l k (Hrep & Lb & D) Hsz Hk HT.
  pose proof Hrep as (Hz & Hl & Hs & Hb). pose proof D as (D1 & D2).
  set (ws := bv_words (sb_bits s)) in *. set (nb := length l / 512 + 1) in *. set (n := length l / 64) in *.
  assert (Hn8 : n / 8 = nb - 1) by (subst n nb; rewrite <- div_512; lia).
  assert (B : forall q, q < nb -> nth (2 * q) (sb_block s) 0%N = P ws (8 * q)) by (intros; apply D1; lia).
  assert (F1 : 64 * n <= length l < 64 * n + 64).
  { pose proof (Nat.div_mod (length l) 64); pose proof (Nat.mod_upper_bound (length l) 64). subst n. lia. }
  assert (F2 : 8 * (nb - 1) <= n < 8 * nb).
  { rewrite <- Hn8. pose proof (Nat.div_mod n 8); pose proof (Nat.mod_upper_bound n 8). lia. }
  assert (Enb : length l / 512 = nb - 1) by lia.
  assert (Hn8' : n / 8 < nb) by lia. assert (Esz : sb_size s / 64 = n) by (unfold sb_size; now rewrite Hz).
  rewrite Enb in HT. assert (Hnb1 : 1 <= nb) by lia. clearbody n nb. clear Enb.
  unfold sb_select. fold ws.
  assert (exists lo hi, (if negb (length (sb_tips s) =? 0) then
       do l0 <- lget (sb_tips s) (k / 512);
       do r <- lget (sb_tips s) (k / 512 + 1);
       Ok (N.to_nat l0, N.to_nat r + 1)
     else Ok (0, sb_num_blocks s)) = Ok (lo, hi) /\ lo < hi /\ hi <= nb /\ b8 ws lo <= k /\ (hi = nb \/ k < b8 ws hi))
    as (lo & hi & E & Hlt & Hhi & Hlo & Hhk).
  { destruct HT as [HT|(T & HT)].
    - rewrite HT. simpl. unfold sb_num_blocks. rewrite Lb, Nat.div_mul by lia.
      exists 0, nb. split; auto. split; [lia|]. split; auto. split; [|now left]. change (b8 ws 0) with 0. lia.
    - destruct T as (T1 & T2 & T3).
      destruct (Nat.eqb_spec (length (sb_tips s)) 0); [lia|]. cbn [negb].
      rewrite (lget_nth _ _ _ 0%N) by lia. cbn [bind]. rewrite (lget_nth _ _ _ 0%N) by lia. cbn [bind].
      pose proof (Nat.div_mod k 512). pose proof (Nat.mod_upper_bound k 512).
      destruct (T2 (k / 512) HT) as (a & A1 & A2 & A3 & A4).
      exists a. rewrite A1. 
      destruct (Nat.eq_dec (k / 512) (b8 ws (nb - 1) / 512)) as [Eq|Ne].
      + rewrite Eq, T3. exists nb. split; [do 2 f_equal; lia|]. split; [lia|]. split; auto. split; [lia|now left].
      + destruct (T2 (k / 512 + 1)) as (c & C1 & C2 & C3 & C4); [lia|]. rewrite C1. exists (c + 1).
        split; [do 2 f_equal; lia|]. replace (c + 1) with (S c) by lia.
        destruct C4 as [C4|C4]; [lia|].
        assert (a < S c).
        { destruct (Nat.lt_ge_cases a (S c)); auto. pose proof (b8_mono ws (S c) a). lia. }
        split; auto. split; [lia|]. split; [lia|]. right. lia. }
  rewrite E. clear HT E Hn8. cbn [bind].
  destruct (block_search_ok ws (sb_block s) nb k (length (sb_block s)) lo hi) as (lo' & E1 & L1 & L2 & L3); auto; try lia.
  rewrite E1. cbn [bind]. rewrite (lget_nth _ _ _ 0%N) by lia. cbn [bind].
  rewrite (Nat.mul_comm lo' 2), B, b8_P by auto.
  change (2 ^ 41)%N with 2199023255552%N in Hsz.
  assert (Hkl : k < length l).
  { pose proof (R_le ws 0 (length l)). rewrite R_0 in H. lia. }
  replace (N.of_nat k + 1)%N with (N.of_nat (k + 1)) by lia.
  rewrite wsub_nat; [|lia|change (2 ^ 64)%N with 18446744073709551616%N; lia].
  assert (Hlo8 : 8 * lo' <= n).
  { lia. }
  destruct (tip_scan_ok ws (sb_block s) nb n (sb_size s) k lo' 7 1) as (off & E2 & O1 & O2 & O3 & O4); auto; try lia.
  { replace (64 * (8 * lo' + (1 - 1))) with (512 * lo') by lia. auto. }
  clear Hn8' Esz. unfold b8 in *. rewrite E2. cbn [bind]. rewrite (Nat.mul_comm lo' 8).
  remember (8 * lo' + (off - 1)) as w eqn:Wd.
  assert (Q : w / 8 = lo') by (apply div8_unique with (off - 1); lia).
  assert (Qr : w mod 8 = off - 1) by (symmetry; apply Nat.mod_unique with lo'; lia).
  rewrite second_tip_ok by (rewrite Q; lia). cbn [bind]. rewrite Q, Qr, D2 by lia. rewrite <- Wd. clear Q Qr.
  pose proof (R_mono ws (512 * lo') (64 * w)).
  assert (Et : (P ws w - P ws (8 * lo'))%N = N.of_nat (R ws (64 * w) - R ws (512 * lo'))).
  { unfold P. replace (64 * (8 * lo')) with (512 * lo') by lia. lia. }
  rewrite Et. rewrite wsub_nat; [|lia|change (2 ^ 64)%N with 18446744073709551616%N; lia].
  assert (Hw1 : 64 * w < length l).
  { destruct (Nat.lt_ge_cases (64 * w) (length l)); auto. pose proof (R_mono ws (length l) (64 * w)). lia. }
  replace (lo' * 512 + (off - 1) * 64) with (64 * w) by lia.
  assert (Ew : 64 * w / 64 = w) by (rewrite Nat.mul_comm; apply Nat.div_mul; discriminate). rewrite Ew. clear Ew.
  assert (Hwl : w < length ws).
  { rewrite Hl. pose proof (gws_ge (length l)). lia. }
  rewrite (lget_nth _ ws w 0%N) by auto. cbn [bind].
  assert (HR : k < R ws (64 * w + 64)).
  { assert (X : R ws (length l) <= R ws (64 * w + 64) \/ k < R ws (64 * (8 * lo' + off))).
    { destruct O4 as [O4|[O4|O4]]; [| |now right].
      - destruct L3 as [L3|L3].
        + left. apply R_mono. lia.
        + right. replace (64 * (8 * lo' + off)) with (512 * S lo') by lia. auto.
      - left. apply R_mono. lia. }
    destruct X; [lia|]. replace (64 * w + 64) with (64 * (8 * lo' + off)) by lia. auto. }
  exists w. fold ws. split; auto. split; [lia|].
  replace (k + 1 - R ws (512 * lo') - (R ws (64 * w) - R ws (512 * lo'))) with (k + 1 - R ws (64 * w)) by lia. reflexivity.
Qed.

Lemma kth_word : forall v l k w, bv_rep v l -> k < count_true l -> R (bv_words v) (64 * w) <= k < R (bv_words v) (64 * w + 64) -> 64 * w < length l ->
  forall p, is_kth_one l k p -> p / 64 = w.
Proof.
  intros v l k w Hr Hk [H1 H2] Hw p [P1 P2]. assert (Hp : p < length l) by (apply nth_error_Some; congruence).
  rewrite (count_true_R v) in P2 by (auto; lia). pose proof Hr as (_ & _ & _ & Hb).
  assert (B : bitat (bv_words v) p = true). { rewrite Hb by auto. now apply nth_error_nth with (d := false) in P1. }
  assert (RS : R (bv_words v) (S p) = S k) by (rewrite R_S, B; lia).
  assert (64 * w <= p < 64 * w + 64).
  { split.
    - destruct (Nat.le_gt_cases (64 * w) p); auto. pose proof (R_mono (bv_words v) (S p) (64 * w)). lia.
    - destruct (Nat.lt_ge_cases p (64 * w + 64)); auto. pose proof (R_mono (bv_words v) (64 * w + 64) p). lia. }
  symmetry. apply Nat.div_unique with (p - 64 * w); lia.
Qed.

Lemma select_portable : forall v l, bv_reach v l -> (N.of_nat (length l) < 2 ^ 41)%N ->
  exists s, sb_build true v = Ok s /\ forall k p, is_kth_one l k p -> k / 512 <= ones_before_last_block l / 512 ->
    let w := p / 64 in let x := nth w (bv_words v) 0%N in
    let i := k + 1 - count_true (firstn (64 * w) l) in
    let c := ones_below 32 x - lost_ones x in
    let h := N.shiftr x 32 in
    1 <= i <= ones_below 64 x /\
    if (lost_ones x =? 0) || (i <=? c) then sb_select sel s k = Ok (N.of_nat p)
    else if i - c <=? ones_below 32 h then
      exists q, 64 * w + 32 <= q < 64 * w + 64 /\ sb_select sel s k = Ok (N.of_nat q) /\
        N.testbit x (N.of_nat (q - 64 * w)) = true /\ ones_below (q - 64 * w) x + 1 = i + lost_ones x
    else sb_select sel s k = if i - c - ones_below 24 h <=? 8 then Ok (N.of_nat (64 * w + 63)) else UB.
Proof.
  intros v l Hr Hsz. apply bv_reach_rep in Hr. destruct (sb_build_ok v l true Hr Hsz) as (s & E & Eb & Ok1 & T).
  exists s. split; auto. intros k p Hp Hk w x i c h.
  assert (O : ones_before_last_block l = b8 (bv_words v) (length l / 512)).
  { unfold ones_before_last_block, b8. apply count_true_R; auto. apply Nat.mul_div_le. lia. }
  assert (O2 : count_true l = R (bv_words v) (length l)).
  { rewrite <- (count_true_R v l) by auto. now rewrite firstn_all. }
  assert (Lp : p < length l). { destruct Hp as [Hp _]. apply nth_error_Some. congruence. }
  assert (Rp : R (bv_words v) p = k). { destruct Hp as [_ Hp]. rewrite <- Hp. symmetry. apply count_true_R; auto. lia. }
  pose proof Hr as (_ & _ & _ & Hb).
  assert (B : bitat (bv_words v) p = true). { rewrite Hb by auto. destruct Hp as [Hp _]. now apply nth_error_nth with (d := false) in Hp. }
  assert (RS : R (bv_words v) (S p) = S k) by (rewrite R_S, B; lia).
  assert (Kl : k < R (bv_words v) (length l)). { pose proof (R_mono (bv_words v) (S p) (length l)). lia. }
  destruct (select_word sel s l k) as (w' & W1 & W2 & W3); auto.
  { now rewrite Eb. }
  { right. rewrite Eb. split; [|lia]. apply T; auto. intro; subst. simpl in Lp. lia. }
  rewrite Eb in W2, W3.
  assert (Ew : w' = w). { symmetry. apply (kth_word v l k w'); auto. lia. }
  subst w'. fold x in W3.
  assert (Ei : k + 1 - R (bv_words v) (64 * w) = i). { unfold i. rewrite (count_true_R v) by (auto; lia). reflexivity. }
  rewrite Ei in W3. rewrite W3.
  rewrite (R_word _ _ 64) in W2 by lia. fold x in W2.
  assert (Hi : 1 <= i <= ones_below 64 x) by lia. split; auto.
  assert (Dp : p = 64 * w + p mod 64) by (apply Nat.div_mod; lia).
  pose proof (Nat.mod_upper_bound p 64).
  assert (Oi : ones_below (p mod 64) x + 1 = i).
  { rewrite <- Ei, <- Rp. rewrite Dp at 2. rewrite R_word by lia. fold x. lia. }
  assert (Tp : N.testbit x (N.of_nat (p mod 64)) = true).
  { unfold x. rewrite <- bitat_word by lia. now rewrite <- Dp. }
  assert (Ub : forall q, ones_below q x + 1 = i -> q < 64 -> N.testbit x (N.of_nat q) = true -> q = p mod 64).
  { intros q Q1 Q2 Q3.
    assert (M : forall a b, a < b -> N.testbit x (N.of_nat a) = true -> ones_below a x < ones_below b x).
    { clear. intros a b H T. replace b with (S a + (b - S a)) by lia. rewrite ones_below_add, ones_below_S, T. lia. }
    destruct (Nat.lt_trichotomy q (p mod 64)) as [L|[L|L]]; auto.
    - pose proof (M _ _ L Q3). lia.
    - pose proof (M _ _ L Tp). lia. }
  change (2 ^ 41)%N with 2199023255552%N in Hsz.
  assert (WS : forall q, q < 64 -> wsub (N.of_nat (64 * w) + (N.of_nat q + 1)) 1 = N.of_nat (64 * w + q)).
  { intros q Hq. replace (N.of_nat (64 * w) + (N.of_nat q + 1))%N with (N.of_nat (64 * w + q + 1)) by lia.
    change 1%N with (N.of_nat 1) at 1. rewrite wsub_nat; [f_equal; lia|lia|change (2 ^ 64)%N with 18446744073709551616%N; lia]. }
  pose proof (sel_exact x (N.of_nat i)) as SE. cbv zeta in SE. specialize (SE ltac:(lia)). fold c h in SE.
  pose proof (lost_le x) as LL. assert (O64 : ones_below 64 x = ones_below 32 x + ones_below 32 h).
  { change 64 with (32 + 32). now rewrite ones_below_add. }
  destruct (N.leb_spec (N.of_nat i) (N.of_nat c)) as [L1|L1].
  - replace ((lost_ones x =? 0) || (i <=? c)) with true by (destruct (Nat.leb_spec i c); [now rewrite orb_true_r|lia]).
    destruct SE as (q & Q1 & Q2 & Q3 & Q4). rewrite Q2. cbn [bind]. rewrite WS by lia.
    rewrite (Ub q) by (auto; lia). now rewrite <- Dp.
  - destruct (Nat.leb_spec i c); [lia|]. rewrite orb_false_r.
    destruct (Nat.eqb_spec (lost_ones x) 0) as [Z|Z].
    + destruct (N.leb_spec (N.of_nat i - N.of_nat c) (N.of_nat (ones_below 32 h))); [|unfold c in *; lia].
      destruct SE as (q & Q1 & Q2 & Q3 & Q4). rewrite Q2. cbn [bind]. rewrite WS by lia.
      rewrite (Ub q) by (auto; lia). now rewrite <- Dp.
    + destruct (N.leb_spec (N.of_nat i - N.of_nat c) (N.of_nat (ones_below 32 h))).
      * replace (i - c <=? ones_below 32 h) with true by (symmetry; apply Nat.leb_le; lia).
        destruct SE as (q & Q1 & Q2 & Q3 & Q4). rewrite Q2. cbn [bind]. rewrite WS by lia.
        exists (64 * w + q). replace (64 * w + q - 64 * w) with q by lia. repeat split; auto; lia.
      * replace (i - c <=? ones_below 32 h) with false by (symmetry; apply Nat.leb_gt; lia).
        rewrite SE. replace (N.of_nat i - N.of_nat c - N.of_nat (ones_below 24 h) <=? 8)%N with (i - c - ones_below 24 h <=? 8).
        2:{ destruct (Nat.leb_spec (i - c - ones_below 24 h) 8), (N.leb_spec (N.of_nat i - N.of_nat c - N.of_nat (ones_below 24 h)) 8); lia. }
        destruct (i - c - ones_below 24 h <=? 8); cbn [bind]; auto.
        change 64%N with (N.of_nat 63 + 1)%N. rewrite WS by lia. reflexivity.
Qed.

(** right exactly when no one is missed before *)
Lemma select_portable_iff : forall v l, bv_reach v l -> (N.of_nat (length l) < 2 ^ 41)%N ->
  exists s, sb_build true v = Ok s /\ forall k p, is_kth_one l k p -> k / 512 <= ones_before_last_block l / 512 ->
    let x := nth (p / 64) (bv_words v) 0%N in
    (sb_select sel s k = Ok (N.of_nat p) <-> lost_ones x = 0 \/ k + 1 + lost_ones x <= count_true (firstn (64 * (p / 64)) l) + ones_below 32 x).
Proof.
  intros v l Hr Hsz. destruct (select_portable v l Hr Hsz) as (s & E & A). exists s. split; auto. intros k p Hp Hk x.
  destruct (A k p Hp Hk) as (Hi & B). clear A. cbv zeta in B. fold x in B, Hi.
  set (w := p / 64) in *. set (i := k + 1 - count_true (firstn (64 * w) l)) in *.
  pose proof (lost_le x) as LL.
  destruct (Nat.eqb_spec (lost_ones x) 0) as [Z|Z]; [cbn [orb] in B; tauto|].
  destruct (Nat.leb_spec i (ones_below 32 x - lost_ones x)) as [L|L].
  - cbn [orb] in B. split; auto. intros _. right. lia.
  - cbn [orb] in B. split; [|intros [?|?]; [congruence|lia]]. intros F. exfalso.
    assert (Rr : bv_rep v l) by now apply bv_reach_rep.
    assert (Lp : p < length l). { destruct Hp as [Hp _]. apply nth_error_Some. congruence. }
    pose proof (Nat.div_mod p 64 ltac:(lia)) as Dp. fold w in Dp. pose proof (Nat.mod_upper_bound p 64 ltac:(lia)) as Mp.
    assert (Oi : ones_below (p - 64 * w) x + 1 = i).
    { destruct Hp as [_ Hp]. unfold i. rewrite <- Hp. rewrite !(count_true_R v) by (auto; lia). 
      replace (R (bv_words v) p) with (R (bv_words v) (64 * w + (p - 64 * w))) by (f_equal; lia). rewrite R_word by lia. fold x. lia. }
    destruct (Nat.leb_spec (i - (ones_below 32 x - lost_ones x)) (ones_below 32 (N.shiftr x 32))) as [M|M].
    + destruct B as (q & Q1 & Q2 & Q3 & Q4). rewrite F in Q2. assert (q = p) by (apply Nat2N.inj; congruence). subst q. lia.
    + rewrite F in B. destruct (Nat.leb_spec (i - (ones_below 32 x - lost_ones x) - ones_below 24 (N.shiftr x 32)) 8) as [M2|M2]; [|discriminate].
      assert (Ep : p = 64 * w + 63) by (apply Nat2N.inj; congruence).
      assert (14 < lost_ones x). { unfold lost_ones in *. destruct (_ =? _)%N; [destruct (_ <? _); lia|]. destruct (_ =? _)%N; lia. }
      assert (ones_below 63 x + 1 = i). { rewrite <- Oi. do 2 f_equal. lia. }
      assert (ones_below 63 x = ones_below 32 x + ones_below 24 (N.shiftr x 32) + ones_below 7 (N.shiftr (N.shiftr x 32) 24)).
      { change 63 with (32 + (24 + 7)). rewrite !ones_below_add. change (N.of_nat 32) with 32%N. change (N.of_nat 24) with 24%N. lia. }
      lia.
Qed.
