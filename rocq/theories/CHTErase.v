(** erase leaves the result of every lookup as it was. *)
From Coq Require Import List NArith ZArith Arith Bool Lia.
From Verif Require Import Base Spec Spec4 BitUtilModel FitVectorModel FitVectorProof HashModel HashProof CHTModel CHTRing CHTShift CHTWord CHTProof CHTInsert CHTMain CHTResize CHTRun.
Import ListNotations.
Local Open Scope nat_scope.

Lemma cnt_mono_p : forall p q a e, (forall y, (a <= y < e)%Z -> p y = true -> q y = true) -> cnt p a e <= cnt q a e.
Proof.
  intros p q a e. remember (Z.to_nat (e - a)) as n eqn:En. revert a En. induction n; intros a En M.
  - rewrite !cnt_nil by lia. lia.
  - rewrite !(cnt_cons _ a) by lia. assert (cnt p (a + 1) e <= cnt q (a + 1) e) by (apply IHn; [lia|]; intros y Hy; apply M; lia).
    specialize (M a ltac:(lia)). destruct (p a); [rewrite M by auto|]; destruct (q a); lia.
Qed.
Lemma cnt_but_one : forall u p q a e, (forall y, (a <= y < e)%Z -> y <> u -> p y = true -> q y = true) -> cnt p a e <= S (cnt q a e).
Proof.
  intros u p q a e M. destruct (Z_lt_le_dec u a) as [|Ha]; [pose proof (cnt_mono_p p q a e ltac:(intros y Hy; apply M; lia)); lia|].
  destruct (Z_lt_le_dec u e) as [He|]; [|pose proof (cnt_mono_p p q a e ltac:(intros y Hy; apply M; lia)); lia].
  rewrite (cnt_app p u e a), (cnt_app q u e a) by lia. rewrite !(cnt_cons _ u) by lia.
  pose proof (cnt_mono_p p q a u ltac:(intros y Hy; apply M; lia)). pose proof (cnt_mono_p p q (u + 1) e ltac:(intros y Hy; apply M; lia)).
  destruct (p u), (q u); lia.
Qed.

Section Erase.
Variables (kb VB VW L : nat).
Hypothesis Hkb : kb <= 60.
Hypothesis HL : 1 <= L <= 99.
Hypothesis HVW : 1 <= VW <= 63.
Hypothesis HVB : VB = 0 \/ VB = VW.

Lemma land_ones_idx : forall h bb, (bb < 64)%N -> forall m, shl64 1 bb = Ok m -> N.land h (wsub m 1) = (h mod 2 ^ bb)%N.
Proof.
  intros h bb Hb m E. unfold shl64 in E. destruct (bb <? 64)%N; [|discriminate]. injection E as <-. unfold wshl, wrap64. rewrite N.shiftl_1_l.
  rewrite N.mod_small by (apply N.pow_lt_mono_r; lia). rewrite mask_sub by auto. apply N.land_ones.
Qed.
Lemma erase_base : forall t l vs H k, base kb VW L t l vs H -> 1 <= ch_bucket_bits t -> (k < 2 ^ N.of_nat kb)%N ->
  exists t' l', cht_erase_here t k = Ok t' /\ base kb VW L t' l' vs H /\ ch_bucket t' = ch_bucket t /\ ch_used t' = ch_used t /\
    (forall k' v, holds kb l' vs H k' v <-> holds kb l vs H k' v) /\
    (ch_size t' = ch_size t \/ ch_size t' = size_down (ch_size t)) /\
    cnt (fD l') 0 (Z.of_nat (ch_bucket t)) <= S (cnt (fD l) 0 (Z.of_nat (ch_bucket t))).
Proof.
  intros t l vs H k G Hb1 Hk. pose proof (g_a _ _ _ _ _ _ _ G) as A. pose proof (g_ring _ _ _ _ _ _ _ G) as R. pose proof (g_bb _ _ _ _ _ _ _ G) as Ebb. pose proof (g_bb60 _ _ _ _ _ _ _ G) as Hbb.
  assert (Same : exists t' l', Ok t = Ok t' /\ base kb VW L t' l' vs H /\ ch_bucket t' = ch_bucket t /\ ch_used t' = ch_used t /\
    (forall k' v, holds kb l' vs H k' v <-> holds kb l vs H k' v) /\ (ch_size t' = ch_size t \/ ch_size t' = size_down (ch_size t)) /\
    cnt (fD l') 0 (Z.of_nat (ch_bucket t)) <= S (cnt (fD l) 0 (Z.of_nat (ch_bucket t)))) by (exists t, l; do 4 (split; auto); split; [tauto|]; split; auto).
  unfold cht_erase_here. rewrite (g_kb _ _ _ _ _ _ _ G). destruct (hashf_ok kb (le63 kb Hkb) k Hk) as (Eh & Hh & _). rewrite Eh. cbn [bind].
  rewrite (proj2 (Nat.eqb_neq (ch_bucket_bits t) 0)) by lia.
  destruct (shl64 1 (N.of_nat (ch_bucket_bits t))) as [m| | |] eqn:Em; try (unfold shl64 in Em; rewrite (proj2 (N.ltb_lt _ _)) in Em by lia; discriminate). cbn [bind].
  rewrite (land_ones_idx _ (N.of_nat (ch_bucket_bits t)) ltac:(lia) m Em).
  set (B := ch_bucket t) in *. assert (HB : 1 <= B) by apply A.
  assert (Ei : exists b, N.to_nat (hashf kb k mod 2 ^ N.of_nat (ch_bucket_bits t)) = idx B b).
  { set (r := N.to_nat _). assert (Hr : r < B). { unfold r. rewrite Ebb. pose proof (N.mod_lt (hashf kb k) (2 ^ N.of_nat (ch_bucket_bits t)) (N.pow_nonzero 2 _ ltac:(discriminate))) as Hm'.
      assert (EN : N.of_nat (2 ^ ch_bucket_bits t) = (2 ^ N.of_nat (ch_bucket_bits t))%N) by (rewrite Nat2N.inj_pow; reflexivity). rewrite <- EN in *. clear - Hm'. generalize dependent (2 ^ ch_bucket_bits t). intros; lia. }
    exists (Z.of_nat r). unfold idx. rewrite Z.mod_small by lia. now rewrite Nat2Z.id. }
  destruct Ei as (b & Eb). rewrite Eb. rewrite (get_arr VW t l vs A b : fv_get (ch_arr t) (idx B b) = _). cbn [bind]. rewrite is_occupied_eq.
  destruct (ob (wd l b)) eqn:Ob; [|exact Same]. cbn [negb].
  set (q := (hashf kb k / N.of_nat (ch_bucket_bits t))%N).
  destruct (search_ok VW t l vs A H R b q) as [(z & Uz & Hz & Qz & Oz & i & Ei & Fi)|(Nz & p & Sp & Hp & i & Ei & Fi)]; fold B in Ei; rewrite Ei; cbn [bind].
  2: { unfold fO in Fi. rewrite Ob in Fi. fold B in Fi. rewrite Fi. cbn [bind]. exact Same. }
  fold B in Fi. rewrite Fi. cbn [bind]. rewrite (get_arr VW t l vs A z : fv_get (ch_arr t) (idx B z) = _). cbn [bind]. destruct (is_deleted (wd l z)); [exact Same|].
  destruct (w_del_spec (wd l z) (ch_quo_bits t) (word_bound VW t l vs A z)) as (W1 & W2 & W3 & W4 & W5 & W6).
  destruct (put_arr VW t l vs A z _ W1) as (t1 & E1 & R1 & A1). fold B in E1. rewrite E1. cbn [bind].
  set (l1 := upd l (idx (ch_bucket t) z) (N.lor (wd l z) kDeletedMask)) in *.
  assert (Wy : forall y, wd l1 y = if idx B y =? idx B z then N.lor (wd l z) kDeletedMask else wd l y) by (intros y; exact (upd_arr _ _ _ _ A y z _)).
  assert (We : forall y, (idx B y =? idx B z) = true -> wd l y = wd l z) by (intros y Ey; apply Nat.eqb_eq in Ey; unfold wd; rewrite (a_ll _ _ _ _ A); fold B; now rewrite Ey).
  assert (Ut : ch_used t1 = ch_used t /\ ch_bucket t1 = B) by (rewrite R1; auto). destruct Ut as (Ut & Bt).
  assert (Sz : ch_size t1 = ch_size t) by (rewrite R1; reflexivity).
  set (t2 := with_counts t1 (size_down (ch_size t1)) (ch_used t1)).
  destruct (same_flags kb VW L t l vs H G t2 l1 vs) as (G' & FU' & HK').
  - destruct A1. constructor; auto.
  - now apply (retab_count t t1).
  - intros y. unfold fO. rewrite Wy. specialize (We y). destruct (idx B y =? idx B z); auto. rewrite We; auto.
  - intros y. unfold fC. rewrite Wy. specialize (We y). destruct (idx B y =? idx B z); auto. rewrite We; auto.
  - intros y. unfold fS. rewrite Wy. specialize (We y). destruct (idx B y =? idx B z); auto. rewrite We; auto.
  - intros y. unfold fQ. rewrite Wy. specialize (We y). destruct (idx B y =? idx B z); auto. rewrite We; auto.
  - intros y Dy. unfold fD in Dy. rewrite Wy in Dy. destruct (idx B y =? idx B z) eqn:Ey; [|now apply (g_del _ _ _ _ _ _ _ G)].
    specialize (We y Ey). rewrite <- Uz. unfold fU, fO, fC, fS. now rewrite We.
  - exists t2, l1. split; auto. split; auto. split; [exact Bt|]. split; [exact Ut|]. split; [|split].
    + intros k' v. unfold holds. split; intros (y & Y1 & Y2 & Y3); exists y; [rewrite FU' in Y1; rewrite HK' in Y2|rewrite FU', HK']; auto.
    + right. unfold t2. cbn [with_counts ch_size]. now rewrite Sz.
    + apply cnt_but_one with (z mod Z.of_nat B)%Z. intros y Hy Ny Dy. unfold fD in *. rewrite Wy in Dy. destruct (Nat.eqb_spec (idx B y) (idx B z)) as [Ey|]; auto. exfalso. apply Ny.
      unfold idx in Ey. pose proof (Z.mod_pos_bound z (Z.of_nat B) ltac:(lia)). rewrite (Z.mod_small y) in Ey by lia. lia.
Qed.
Lemma bits_pos : forall t, ch_bucket t = 2 ^ ch_bucket_bits t -> ch_max t = ch_bucket t * L / 100 -> 1 <= ch_max t -> 1 <= ch_bucket_bits t.
Proof.
  clear Hkb HVW HVB. intros t Eb Em Hm. destruct (ch_bucket_bits t) as [|b]; [exfalso|lia]. rewrite Em, Eb in Hm. rewrite Nat.div_small in Hm by (simpl; lia). lia.
Qed.
Lemma erase_lookups : forall bb ops k, 1 <= bb <= 60 -> 1 <= 2 ^ bb * L / 100 -> (N.of_nat (length ops) < 2 ^ 50)%N -> Forall (map_op_in kb VW) ops -> (k < 2 ^ N.of_nat kb)%N ->
  exists t t', cht_run VB L kb (2 ^ bb) VW ops = Ok t /\ cht_erase VB L t k = Ok t' /\ forall k', (k' < 2 ^ N.of_nat kb)%N -> cht_get t' k' = Ok (last_set k' ops).
Proof.
  intros bb ops k Hbb Hmax Hn Ho Hk. destruct (run_ok kb VB VW L (le63 kb Hkb) ltac:(lia) HVW HVB bb ops (proj2 Hbb) ltac:(lia) Hmax Hn Ho (rooms_60 kb L ops Hkb (proj2 HL))) as (t & E & R & S & Le). exists t.
  change (2 ^ 50)%N with 1125899906842624%N in *.
  assert (R1 : exists t1, (if ch_size t =? ch_min t then cht_reserve VB L t (size_twice (ch_size t)) else Ok t) = Ok t1 /\ rep kb VW L t1 (mapP ops)).
  { destruct (ch_size t =? ch_min t); [|exists t; auto].
    rewrite size_twice_small by (change (2 ^ 63)%N with 9223372036854775808%N; lia).
    destruct (reserve_any kb VB VW L (le63 kb Hkb) ltac:(lia) HVW HVB t (mapP ops) (ch_size t * 2) R) as (t1 & E1 & R1 & _); [change (2 ^ 51)%N with 2251799813685248%N; lia|change (2 ^ 52)%N with 4503599627370496%N; lia|right; right; left; split; [exact Hkb|lia]|].
    exists t1. auto. }
  destruct R1 as (t1 & E1 & (l & vs & H & G & EP)). destruct (erase_base t1 l vs H k G (bits_pos t1 (g_bb _ _ _ _ _ _ _ G) (g_max _ _ _ _ _ _ _ G) (g_max1 _ _ _ _ _ _ _ G)) Hk) as (t' & l' & E' & G' & _ & _ & Gt & _). exists t'. split; auto. split; [unfold cht_erase; now rewrite E1|].
  intros k' Hk'. destruct (get_ok kb VW L (le63 kb Hkb) t' l' vs H G' k' Hk') as [(v & Hv & Eg)|(Hv & Eg)]; rewrite Eg.
  - apply Gt in Hv. apply EP in Hv; auto. unfold mapP in Hv. now rewrite Hv.
  - f_equal. destruct (last_set k' ops) as [v|] eqn:El; auto. exfalso. apply (Hv v). apply Gt. now apply EP.
Qed.
End Erase.
