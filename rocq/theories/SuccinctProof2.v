(** Proofs about SuccinctModel.v: sampling and select *)
From Coq Require Import List NArith ZArith Lia Bool Arith.

From Verif Require Import Base Spec BitUtilModel BitUtilProof BitUtilProof2 XorMapProof BitVectorModel BitVectorProof BitVectorProof2 SuccinctModel SuccinctProof.
Import ListNotations.
Local Open Scope nat_scope.

(** ** Sampling *)
(** b j: ones before block j *)
Definition b8 (ws : list N) (j : nat) : nat := R ws (512 * j).

Lemma b8_P : forall ws j, P ws (8 * j) = N.of_nat (b8 ws j).
Proof. intros. unfold P, b8. do 2 f_equal. lia. Qed.

Lemma b8_mono : forall ws a b, a <= b -> b8 ws a <= b8 ws b.
Proof. intros. unfold b8. apply R_mono. lia. Qed.

Lemma b8_step : forall ws a, b8 ws (S a) <= b8 ws a + 512.
Proof. intros. unfold b8. pose proof (R_le ws (512 * a) (512 * S a)). lia. Qed.

Definition tip_at (ws : list N) (tips : list N) (s hi : nat) : Prop :=
  exists a, nth s tips 0%N = N.of_nat a /\ a <= hi /\ b8 ws a <= 512 * s /\ (s = 0 \/ a < hi /\ 512 * s <= b8 ws (S a)).

Definition tips_inv (ws : list N) (j : nat) (st : list N * N) : Prop :=
  length (fst st) = 1 + b8 ws j / 512 /\ snd st = N.of_nat (512 * (b8 ws j / 512 + 1)) /\
  forall s, s <= b8 ws j / 512 -> tip_at ws (fst st) s j.

Lemma tips_step_inv : forall ws block j st nb, length block = nb * 2 ->
  (forall q, q < nb -> nth (2 * q) block 0%N = P ws (8 * q)) -> S j < nb -> (N.of_nat nb <= 2 ^ 32)%N ->
  tips_inv ws j st -> exists st', tips_step block st (S j) = Ok st' /\ tips_inv ws (S j) st'.
Proof.
  intros ws block j [tips thr] nb Lb B Hj Hnb (L & T & E). unfold tips_step. cbn [fst snd] in *.
  rewrite (lget_nth _ _ _ 0%N) by lia. cbn [bind]. rewrite (Nat.mul_comm (S j) 2), B, b8_P by lia.
  pose proof (b8_step ws j). pose proof (b8_mono ws j (S j)).
  pose proof (Nat.div_mod (b8 ws j) 512). pose proof (Nat.mod_upper_bound (b8 ws j) 512).
  set (t := b8 ws j / 512) in *.
  assert (M : (N.of_nat (S j - 1) mod 2 ^ 32 = N.of_nat j)%N).
  { rewrite N.mod_small; [f_equal; lia|]. change (2 ^ 32)%N with 4294967296%N in *. lia. }
  rewrite M. destruct (N.leb_spec thr (N.of_nat (b8 ws (S j)))).
  - assert (D : b8 ws (S j) / 512 = t + 1).
    { symmetry. apply Nat.div_unique with (b8 ws (S j) - 512 * (t + 1)); lia. }
    eexists. split; [reflexivity|]. unfold tips_inv. cbn [fst snd]. rewrite D, app_length. simpl length. split; [lia|]. split; [lia|].
    intros s Hs. destruct (Nat.eq_dec s (t + 1)).
    + subst s. exists j. rewrite app_nth2 by lia. replace (t + 1 - length tips) with 0 by lia. simpl nth.
      split; auto. split; [lia|]. split; lia.
    + destruct (E s) as (a & A1 & A2 & A3 & A4); [lia|]. exists a. rewrite app_nth1 by lia. split; auto. split; [lia|]. split; auto.
      destruct A4; [now left|right; lia].
  - assert (D : b8 ws (S j) / 512 = t).
    { symmetry. apply Nat.div_unique with (b8 ws (S j) - 512 * t); lia. }
    eexists. split; [reflexivity|]. unfold tips_inv. cbn [fst snd]. rewrite D. split; auto. split; auto.
    intros s Hs. destruct (E s) as (a & A1 & A2 & A3 & A4); [lia|]. exists a. split; auto. split; [lia|]. split; auto.
    destruct A4; [now left|right; lia].
Qed.

Lemma tips_loop : forall ws block nb n j st, length block = nb * 2 ->
  (forall q, q < nb -> nth (2 * q) block 0%N = P ws (8 * q)) -> j + n < nb -> (N.of_nat nb <= 2 ^ 32)%N ->
  tips_inv ws j st -> exists st', foldM (tips_step block) (seq (S j) n) st = Ok st' /\ tips_inv ws (j + n) st'.
Proof.
  intros ws block nb n. induction n; intros j st Lb B Hj Hn I.
  - rewrite Nat.add_0_r. exists st. auto.
  - simpl. destruct (tips_step_inv ws block j st nb) as (st1 & E & I1); auto; try lia.
    rewrite E. cbn [bind]. replace (j + S n) with (S j + n) by lia. apply IHn; auto. lia.
Qed.

(** q: the number of complete groups of 512 ones before the last block *)
Definition tips_ok (ws tips : list N) (nb : nat) : Prop :=
  length tips = b8 ws (nb - 1) / 512 + 2 /\
  (forall s, s <= b8 ws (nb - 1) / 512 -> tip_at ws tips s (nb - 1)) /\
  nth (b8 ws (nb - 1) / 512 + 1) tips 0%N = N.of_nat (nb - 1).

Lemma build_tips_ok : forall ws block nb, length block = nb * 2 -> 1 <= nb ->
  (forall q, q < nb -> nth (2 * q) block 0%N = P ws (8 * q)) -> (N.of_nat nb <= 2 ^ 32)%N ->
  exists tips, build_tips block nb = Ok tips /\ tips_ok ws tips nb.
Proof.
  intros ws block nb Lb H1 B Hn. unfold build_tips.
  assert (I0 : tips_inv ws 0 ([0%N], 512%N)).
  { unfold tips_inv. change (b8 ws 0) with 0. simpl. split; auto. split; auto. intros s Hs. replace s with 0 by lia.
    exists 0. change (b8 ws 0) with 0. split; auto. }
  destruct (tips_loop ws block nb (nb - 1) 0 _ Lb B ltac:(lia) Hn I0) as (st & E & L & T & A).
  rewrite E. cbn [bind]. eexists. split; [reflexivity|]. rewrite Nat.add_0_l in *.
  assert (M : (N.of_nat (nb - 1) mod 2 ^ 32 = N.of_nat (nb - 1))%N).
  { rewrite N.mod_small; [auto|]. change (2 ^ 32)%N with 4294967296%N in *. lia. }
  unfold tips_ok. rewrite M, app_length. simpl length. split; [lia|]. split.
  - intros s Hs. destruct (A s Hs) as (a & A1 & A2). exists a. rewrite app_nth1 by lia. auto.
  - rewrite app_nth2 by lia. replace (b8 ws (nb - 1) / 512 + 1 - length (fst st)) with 0 by lia. reflexivity.
Qed.

Lemma sb_build_ok : forall v l us, bv_rep v l -> (N.of_nat (length l) < 2 ^ 41)%N ->
  exists s, sb_build us v = Ok s /\ sb_bits s = v /\ sbv_ok s l /\
    (us = true -> l <> [] -> tips_ok (bv_words v) (sb_tips s) (length l / 512 + 1)).
Proof.
  intros v l us Hrep Hsz.
  assert (exists s, sb_build us v = Ok s /\ (us = true -> l <> [] -> tips_ok (bv_words v) (sb_tips s) (length l / 512 + 1))) as (s & E & T).
  { pose proof Hrep as (Hz & Hl & Hs & Hb). unfold sb_build. rewrite Hz. destruct (Nat.eqb_spec (length l) 0).
    - eexists. split; [reflexivity|]. intros _ Q. destruct l; simpl in *; [congruence|lia].
    - destruct (build_block_ok v l Hrep) as (block & E1 & L1 & D1 & D2); [intro; subst; simpl in *; lia|].
      rewrite E1. cbn [bind]. destruct us.
      + destruct (build_tips_ok (bv_words v) block (length l / 512 + 1)) as (tips & E2 & T2); auto; try lia.
        * intros q Hq. apply D1. rewrite <- div_512. lia.
        * rewrite E2. cbn [bind]. eexists. split; [reflexivity|]. auto.
      + cbn [bind]. eexists. split; [reflexivity|]. discriminate. }
  exists s. destruct (build_ok v l us s Hrep E) as (E1 & E2). auto.
Qed.

(** ** select *)
Lemma block_search_ok : forall ws block nb k fuel lo hi, length block = nb * 2 ->
  (forall q, q < nb -> nth (2 * q) block 0%N = P ws (8 * q)) ->
  hi - lo <= fuel -> lo < hi -> hi <= nb -> b8 ws lo <= k -> (hi = nb \/ k < b8 ws hi) ->
  exists lo', block_search fuel block (N.of_nat k) lo hi = Ok lo' /\ lo' < nb /\ b8 ws lo' <= k /\ (S lo' = nb \/ k < b8 ws (S lo')).
Proof.
  intros ws block nb k fuel. induction fuel; intros lo hi Lb B Hf Hlt Hh Hb Hk; [lia|].
  cbn [block_search]. destruct (Nat.ltb_spec (lo + 1) hi).
  - pose proof (Nat.div_mod (lo + hi) 2). pose proof (Nat.mod_upper_bound (lo + hi) 2).
    set (c := (lo + hi) / 2) in *.
    rewrite (lget_nth _ _ _ 0%N) by lia. cbn [bind]. rewrite (Nat.mul_comm c 2), B, b8_P by lia.
    destruct (N.ltb_spec (N.of_nat k) (N.of_nat (b8 ws c))); apply IHfuel; auto; try lia.
  - exists lo. split; auto. replace (S lo) with hi by lia. split; [lia|]. auto.
Qed.


Lemma wsub_nat : forall a b, b <= a -> (N.of_nat a < 2 ^ 64)%N -> wsub (N.of_nat a) (N.of_nat b) = N.of_nat (a - b).
Proof.
  intros. unfold wsub. change (2 ^ 64)%N with 18446744073709551616%N in *.
  replace (N.of_nat a + 18446744073709551616 - N.of_nat b)%N with (N.of_nat (a - b) + 1 * 18446744073709551616)%N by lia.
  rewrite N.mod_add by lia. apply N.mod_small. lia.
Qed.

Lemma tip_scan_ok : forall ws block nb n sz k lo m off, length block = nb * 2 -> dir_ok ws block n -> n / 8 < nb ->
  sz / 64 = n -> 1 <= off -> m + off = 8 -> R ws (512 * lo) <= k ->
  R ws (64 * (8 * lo + (off - 1))) <= k -> 8 * lo + (off - 1) <= n ->
  exists off', tip_scan m block sz (N.of_nat (k + 1 - R ws (512 * lo))) lo off = Ok off' /\
  1 <= off' <= 8 /\ 8 * lo + (off' - 1) <= n /\ R ws (64 * (8 * lo + (off' - 1))) <= k /\
  (off' = 8 \/ 8 * lo + off' = n + 1 \/ k < R ws (64 * (8 * lo + off'))).
Proof.
  intros ws block nb n sz k lo m. induction m; intros off Lb D Hn Hsz H1 Hm H0 Hk Hw.
  - cbn [tip_scan]. exists off. split; auto. split; [lia|]. split; auto.
  - cbn [tip_scan]. rewrite Hsz. rewrite (Nat.mul_comm lo 8).
    destruct (Nat.ltb_spec off 8); [|lia]. destruct (Nat.ltb_spec (8 * lo + off) (n + 1)); cbn [andb].
    + pose proof D as (_ & D2).
      assert (Q : (8 * lo + off) / 8 = lo) by (apply div8_unique with off; lia).
      assert (Qr : (8 * lo + off) mod 8 = off) by (symmetry; apply Nat.mod_unique with lo; lia).
      assert (Ql : lo < nb).
      { apply Nat.le_lt_trans with (n / 8); auto. apply Nat.div_le_lower_bound; lia. }
      rewrite second_tip_ok by (rewrite Q; lia). cbn [bind].
      rewrite Q, Qr, D2 by lia. unfold P.
      pose proof (R_mono ws (512 * lo) (64 * (8 * lo + off))).
      replace (64 * (8 * lo)) with (512 * lo) by lia.
      destruct (N.ltb_spec (N.of_nat (R ws (64 * (8 * lo + off))) - N.of_nat (R ws (512 * lo)))%N (N.of_nat (k + 1 - R ws (512 * lo)))).
      * apply IHm; auto; try lia; replace (8 * lo + (S off - 1)) with (8 * lo + off) by lia; lia.
      * exists off. split; auto. split; [lia|]. split; [lia|]. split; auto. right. right. lia.
    + exists off. split; auto. split; [lia|]. split; [lia|]. split; auto. right. left. lia.
Qed.

(** a word-level select that is right on the word x *)
Definition selw_ok (selw : N -> N -> res N) (x : N) : Prop :=
  forall i, (1 <= i <= N.of_nat (ones_below 64 x))%N -> exists p, p < 64 /\ selw x i = Ok (N.of_nat p + 1)%N /\
    N.testbit x (N.of_nat p) = true /\ (N.of_nat (ones_below p x) + 1 = i)%N.

Lemma select_ok : forall selw s l k, sbv_ok s l -> (N.of_nat (length l) < 2 ^ 41)%N ->
  k < R (bv_words (sb_bits s)) (length l) ->
  (sb_tips s = [] \/ tips_ok (bv_words (sb_bits s)) (sb_tips s) (length l / 512 + 1) /\
     k / 512 <= b8 (bv_words (sb_bits s)) (length l / 512) / 512) ->
  (forall x, In x (bv_words (sb_bits s)) -> selw_ok selw x) ->
  exists p, sb_select selw s k = Ok (N.of_nat p) /\ is_kth_one l k p.
Proof.
  intros selw s l k (Hrep & Lb & D) Hsz Hk HT Hsel.
  pose proof Hrep as (Hz & Hl & Hs & Hb). pose proof D as (D1 & D2).
  set (ws := bv_words (sb_bits s)) in *. set (nb := length l / 512 + 1) in *. set (n := length l / 64) in *.
  assert (Hn8 : n / 8 = nb - 1) by (subst n nb; rewrite <- div_512; lia).
  assert (B : forall q, q < nb -> nth (2 * q) (sb_block s) 0%N = P ws (8 * q)) by (intros; apply D1; lia).
  assert (F1 : 64 * n <= length l < 64 * n + 64).
  { pose proof (Nat.div_mod (length l) 64); pose proof (Nat.mod_upper_bound (length l) 64). subst n. lia. }
  assert (F2 : 8 * (nb - 1) <= n < 8 * nb).
  { rewrite <- Hn8. pose proof (Nat.div_mod n 8); pose proof (Nat.mod_upper_bound n 8). lia. }
  assert (Enb : length l / 512 = nb - 1) by lia.
  assert (Hn8' : n / 8 < nb) by lia. assert (Esz : sb_size s / 64 = n) by (unfold sb_size; now rewrite Hz).
  rewrite Enb in HT. assert (Hnb1 : 1 <= nb) by lia. clearbody n nb. clear Enb.
  unfold sb_select. fold ws.
  assert (exists lo hi, (if negb (length (sb_tips s) =? 0) then
       do l0 <- lget (sb_tips s) (k / 512);
       do r <- lget (sb_tips s) (k / 512 + 1);
       Ok (N.to_nat l0, N.to_nat r + 1)
     else Ok (0, sb_num_blocks s)) = Ok (lo, hi) /\ lo < hi /\ hi <= nb /\ b8 ws lo <= k /\ (hi = nb \/ k < b8 ws hi))
    as (lo & hi & E & Hlt & Hhi & Hlo & Hhk).
  { destruct HT as [HT|(T & HT)].
    - rewrite HT. simpl. unfold sb_num_blocks. rewrite Lb, Nat.div_mul by lia.
      exists 0, nb. split; auto. split; [lia|]. split; auto. split; [|now left]. change (b8 ws 0) with 0. lia.
    - destruct T as (T1 & T2 & T3).
      destruct (Nat.eqb_spec (length (sb_tips s)) 0); [lia|]. cbn [negb].
      rewrite (lget_nth _ _ _ 0%N) by lia. cbn [bind]. rewrite (lget_nth _ _ _ 0%N) by lia. cbn [bind].
      pose proof (Nat.div_mod k 512). pose proof (Nat.mod_upper_bound k 512).
      destruct (T2 (k / 512) HT) as (a & A1 & A2 & A3 & A4).
      exists a. rewrite A1. 
      destruct (Nat.eq_dec (k / 512) (b8 ws (nb - 1) / 512)) as [Eq|Ne].
      + rewrite Eq, T3. exists nb. split; [do 2 f_equal; lia|]. split; [lia|]. split; auto. split; [lia|now left].
      + destruct (T2 (k / 512 + 1)) as (c & C1 & C2 & C3 & C4); [lia|]. rewrite C1. exists (c + 1).
        split; [do 2 f_equal; lia|]. replace (c + 1) with (S c) by lia.
        destruct C4 as [C4|C4]; [lia|].
        assert (a < S c).
        { destruct (Nat.lt_ge_cases a (S c)); auto. pose proof (b8_mono ws (S c) a). lia. }
        split; auto. split; [lia|]. split; [lia|]. right. lia. }
  rewrite E. clear HT E Hn8. cbn [bind].
  destruct (block_search_ok ws (sb_block s) nb k (length (sb_block s)) lo hi) as (lo' & E1 & L1 & L2 & L3); auto; try lia.
  rewrite E1. cbn [bind]. rewrite (lget_nth _ _ _ 0%N) by lia. cbn [bind].
  rewrite (Nat.mul_comm lo' 2), B, b8_P by auto.
  change (2 ^ 41)%N with 2199023255552%N in Hsz.
  assert (Hkl : k < length l).
  { pose proof (R_le ws 0 (length l)). rewrite R_0 in H. lia. }
  replace (N.of_nat k + 1)%N with (N.of_nat (k + 1)) by lia.
  rewrite wsub_nat; [|lia|change (2 ^ 64)%N with 18446744073709551616%N; lia].
  assert (Hlo8 : 8 * lo' <= n).
  { lia. }
  destruct (tip_scan_ok ws (sb_block s) nb n (sb_size s) k lo' 7 1) as (off & E2 & O1 & O2 & O3 & O4); auto; try lia.
  { replace (64 * (8 * lo' + (1 - 1))) with (512 * lo') by lia. auto. }
  clear Hn8' Esz. unfold b8 in *. rewrite E2. cbn [bind]. rewrite (Nat.mul_comm lo' 8).
  remember (8 * lo' + (off - 1)) as w eqn:Wd.
  assert (Q : w / 8 = lo') by (apply div8_unique with (off - 1); lia).
  assert (Qr : w mod 8 = off - 1) by (symmetry; apply Nat.mod_unique with lo'; lia).
  rewrite second_tip_ok by (rewrite Q; lia). cbn [bind]. rewrite Q, Qr, D2 by lia. rewrite <- Wd. clear Q Qr.
  pose proof (R_mono ws (512 * lo') (64 * w)).
  assert (Et : (P ws w - P ws (8 * lo'))%N = N.of_nat (R ws (64 * w) - R ws (512 * lo'))).
  { unfold P. replace (64 * (8 * lo')) with (512 * lo') by lia. lia. }
  rewrite Et. rewrite wsub_nat; [|lia|change (2 ^ 64)%N with 18446744073709551616%N; lia].
  assert (Hw1 : 64 * w < length l).
  { destruct (Nat.lt_ge_cases (64 * w) (length l)); auto. pose proof (R_mono ws (length l) (64 * w)). lia. }
  replace (lo' * 512 + (off - 1) * 64) with (64 * w) by lia.
  assert (Ew : 64 * w / 64 = w) by (rewrite Nat.mul_comm; apply Nat.div_mul; discriminate). rewrite Ew. clear Ew.
  assert (Hwl : w < length ws).
  { rewrite Hl. pose proof (gws_ge (length l)). lia. }
  rewrite (lget_nth _ ws w 0%N) by auto. cbn [bind].
  assert (HR : k < R ws (64 * w + 64)).
  { assert (X : R ws (length l) <= R ws (64 * w + 64) \/ k < R ws (64 * (8 * lo' + off))).
    { destruct O4 as [O4|[O4|O4]]; [| |now right].
      - destruct L3 as [L3|L3].
        + left. apply R_mono. lia.
        + right. replace (64 * (8 * lo' + off)) with (512 * S lo') by lia. auto.
      - left. apply R_mono. lia. }
    destruct X; [lia|]. replace (64 * w + 64) with (64 * (8 * lo' + off)) by lia. auto. }
  rewrite R_word in HR by lia.
  destruct (Hsel (nth w ws 0%N)) with (i := N.of_nat (k + 1 - R ws (512 * lo') - (R ws (64 * w) - R ws (512 * lo')))) as (p & P1 & P2 & P3 & P4).
  { apply nth_In. auto. }
  { lia. }
  rewrite P2. cbn [bind]. clear P2 Hsel E1 E2 D1 D2 D B Lb.
  assert (RP : R ws (64 * w + p) = k) by (rewrite R_word by lia; lia).
  assert (Hp : 64 * w + p < length l).
  { destruct (Nat.lt_ge_cases (64 * w + p) (length l)); auto. pose proof (R_mono ws (length l) (64 * w + p)). lia. }
  exists (64 * w + p). split.
  - f_equal. replace (N.of_nat (64 * w) + (N.of_nat p + 1))%N with (N.of_nat (64 * w + p + 1)) by lia.
    change 1%N with (N.of_nat 1) at 1. rewrite wsub_nat; [f_equal; lia|lia|change (2 ^ 64)%N with 18446744073709551616%N; lia].
  - split.
    + rewrite nth_error_nth' with (d := false) by auto. f_equal. rewrite <- Hb by auto. fold ws. rewrite bitat_word; auto.
    + rewrite (count_true_R (sb_bits s)); auto. lia.
Qed.

Lemma select_UB : forall selw s l k, sbv_ok s l -> tips_ok (bv_words (sb_bits s)) (sb_tips s) (length l / 512 + 1) ->
  b8 (bv_words (sb_bits s)) (length l / 512) / 512 < k / 512 -> sb_select selw s k = UB.
Proof.
  intros selw s l k Hok (T1 & T2 & T3) H. replace (length l / 512 + 1 - 1) with (length l / 512) in * by lia.
  unfold sb_select. destruct (Nat.eqb_spec (length (sb_tips s)) 0); [lia|]. cbn [negb].
  assert (X : lget (sb_tips s) (k / 512 + 1) = UB) by (apply lget_UB; lia).
  destruct (lget (sb_tips s) (k / 512)) eqn:E; auto.
  - cbn [bind]. rewrite X. reflexivity.
  - unfold lget in E. destruct (nth_error _ _); discriminate.
  - unfold lget in E. destruct (nth_error _ _); discriminate.
Qed.

Lemma selw_bmi2 : forall x, (x < 2 ^ 64)%N -> selw_ok (sel_bmi2 ctz64) x.
Proof. intros x H i Hi. apply sel_bmi2_good; auto; lia. Qed.

Lemma selw_portable : forall x, (x < 2 ^ 64)%N ->
  N.land x 0x0F0F0F0F <> 0x0F0F0F0F%N -> N.land x 0xF0F0F0F0 <> 0xF0F0F0F0%N -> selw_ok sel x.
Proof. intros x H H1 H2 i Hi. apply sel_good_word; auto; lia. Qed.

(** ** Statements over histories *)
Lemma bv_reach_rep : forall v l, bv_reach v l -> bv_rep v l.
Proof.
  intros v l (s & l0 & ops & H1 & H2 & H3). 
  destruct (bv_start_rep s l0 H1) as (v0 & E0 & R0).
  rewrite E0 in H3. cbn [bind] in H3.
  destruct (bv_run_rep ops v0 l0 l R0 H2) as (v1 & E1 & R1). congruence.
Qed.

