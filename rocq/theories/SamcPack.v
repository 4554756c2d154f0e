(** The search for a free place in SamcModel. *)
From Coq Require Import List NArith ZArith Arith Bool Lia.
From Verif Require Import Base BitUtilModel BitUtilProof BitUtilProof2 BitVectorModel BitVectorProof BitVectorProof2 SamcModel.
Import ListNotations.
Local Open Scope nat_scope.

Lemma min_fold : forall l a, fold_left Nat.min l a <= a /\ Forall (fun x => fold_left Nat.min l a <= x) l /\ In (fold_left Nat.min l a) (a :: l).
Proof.
  induction l as [|x l IH]; intros a; cbn [fold_left]. { repeat split; auto. left. reflexivity. }
  destruct (IH (Nat.min a x)) as (H1 & H2 & H3). split; [lia|]. split.
  - constructor; [lia|exact H2].
  - destruct H3 as [H3|H3]; [|right; right; exact H3]. destruct (Nat.min_spec a x) as [[_ E]|[_ E]]; rewrite E in *; [left; exact H3|right; left; exact H3].
Qed.
Lemma max_fold : forall l a, a <= fold_left Nat.max l a /\ Forall (fun x => x <= fold_left Nat.max l a) l /\ In (fold_left Nat.max l a) (a :: l).
Proof.
  induction l as [|x l IH]; intros a; cbn [fold_left]. { repeat split; auto. left. reflexivity. }
  destruct (IH (Nat.max a x)) as (H1 & H2 & H3). split; [lia|]. split.
  - constructor; [lia|exact H2].
  - destruct H3 as [H3|H3]; [|right; right; exact H3]. destruct (Nat.max_spec a x) as [[_ E]|[_ E]]; rewrite E in *; [right; left; exact H3|left; exact H3].
Qed.
Lemma min_index_le : forall l x, In x l -> min_index l <= x.
Proof. intros l x H. unfold min_index. destruct (min_fold l (hd 0 l)) as (_ & F & _). rewrite Forall_forall in F. apply F. exact H. Qed.
Lemma min_index_in : forall l, l <> [] -> In (min_index l) l.
Proof. intros [|a l] H; [congruence|]. unfold min_index. cbn [hd]. destruct (min_fold (a :: l) a) as (_ & _ & I). destruct I as [I|I]; [rewrite <- I; left; reflexivity|exact I]. Qed.
Lemma max_index_ge : forall l x, In x l -> x <= max_index l.
Proof. intros l x H. unfold max_index. destruct (max_fold l (hd 0 l)) as (_ & F & _). rewrite Forall_forall in F. apply F. exact H. Qed.
Lemma max_index_in : forall l, l <> [] -> In (max_index l) l.
Proof. intros [|a l] H; [congruence|]. unfold max_index. cbn [hd]. destruct (max_fold (a :: l) a) as (_ & _ & I). destruct I as [I|I]; [rewrite <- I; left; reflexivity|exact I]. Qed.

Section Pack.
Variables (v : bitvec) (l : list bool) (indices : list nat) (M : nat).
Hypothesis HR : bv_rep v l.
Hypothesis HI : indices <> [].
Let mn := min_index indices.
Hypothesis HM : M + (max_index indices - mn) < length l.
Hypothesis HF : forall i, M <= i -> i < length l -> nth i l false = true.

Let W := (bv_size v - 1) / 64 + 1.
Definition ext (j : nat) : bool := (j <? 64 * W) && bitat (bv_words v) j.
Lemma W_len : length (bv_words v) = W.
Proof using HR HI HM HF. destruct HR as (Hz & Hl & _). rewrite Hl. unfold W, get_word_size. rewrite Hz. destruct (Nat.eqb_spec (length l) 0); [lia|reflexivity]. Qed.
Lemma W_ge : length l <= 64 * W.
Proof using HR HI HM HF. pose proof (gws_ge (length l)) as G. destruct HR as (Hz & Hl & _). rewrite <- Hl, W_len in G. exact G. Qed.
Lemma ext_l : forall j, j < length l -> ext j = nth j l false.
Proof using HR HI HM HF. intros j H. unfold ext. pose proof W_ge. destruct (Nat.ltb_spec j (64 * W)); [|lia]. destruct HR as (_ & _ & _ & B). rewrite B by exact H. reflexivity. Qed.
Lemma field_ok : forall i, exists w, field_bits v i = Ok w /\ (w < 2 ^ 64)%N /\ forall b, b < 64 -> N.testbit w (N.of_nat b) = ext (64 * i + b).
Proof using HR HI HM HF.
  intros i. unfold field_bits. fold W. destruct (Nat.ltb_spec i W) as [L|L].
  - rewrite (lget_nth _ _ _ 0%N) by (rewrite W_len; exact L). eexists. split; [reflexivity|]. destruct HR as (_ & _ & Sm & _). split; [apply small_nth; exact Sm|].
    intros b Hb. unfold ext, bitat. destruct (Nat.ltb_spec (64 * i + b) (64 * W)); [|lia].
    replace ((64 * i + b) / 64) with i by (symmetry; rewrite Nat.mul_comm, Nat.div_add_l, (Nat.div_small b) by lia; lia).
    replace ((64 * i + b) mod 64) with b; [reflexivity|]. rewrite Nat.add_comm, Nat.mul_comm, Nat.mod_add by lia. symmetry. apply Nat.mod_small. exact Hb.
  - exists 0%N. split; auto. split; [reflexivity|]. intros b Hb. rewrite N.bits_0. unfold ext. destruct (Nat.ltb_spec (64 * i + b) (64 * W)); [lia|reflexivity].
Qed.
Lemma testbit_high : forall w b, (w < 2 ^ 64)%N -> (64 <= b)%N -> N.testbit w b = false.
Proof. clear. intros w b H K. apply N.bits_above_log2. destruct (N.eq_dec w 0) as [->|]; [cbn; lia|]. apply N.log2_lt_pow2 in H; lia. Qed.
Lemma bits_nonzero : forall w, (w < 2 ^ 64)%N -> (forall b, b < 64 -> N.testbit w (N.of_nat b) = false) -> w = 0%N.
Proof. clear. intros w H K. apply N.bits_inj. intros b. rewrite N.bits_0. destruct (N.lt_ge_cases b 64) as [L|L]; [|apply testbit_high; auto]. rewrite <- (N2Nat.id b). apply K. lia. Qed.
Lemma cand_ok : forall ids i cand, (cand < 2 ^ 64)%N -> exists r, candidates v mn i cand ids = Ok r /\ (r < 2 ^ 64)%N /\
  forall b, b < 64 -> N.testbit r (N.of_nat b) = N.testbit cand (N.of_nat b) && forallb (fun id => ext (64 * i + b + (id - mn))) ids.
Proof using HR HI HM HF.
  induction ids as [|id ids IH]; intros i cand Hc; cbn [candidates forallb].
  - exists cand. split; auto. split; auto. intros b _. rewrite andb_true_r. reflexivity.
  - set (p := (id - mn) / 64). set (ins := (id - mn) mod 64).
    assert (DM : id - mn = 64 * p + ins) by (apply Nat.div_mod; lia). assert (LI : ins < 64) by (apply Nat.mod_upper_bound; lia).
    assert (X : exists m, (if ins =? 0 then field_bits v (p + i) else do a <- field_bits v (p + i); do a <- shr64 a (N.of_nat ins); do b <- field_bits v (p + i + 1); do b <- shl64 b (N.of_nat (64 - ins)); Ok (N.lor a b)) = Ok m /\ (m < 2 ^ 64)%N /\
      forall b, b < 64 -> N.testbit m (N.of_nat b) = ext (64 * i + b + (id - mn))).
    { destruct (field_ok (p + i)) as (w & Ew & Lw & Bw). destruct (Nat.eqb_spec ins 0) as [Z|Z].
      - exists w. split; auto. split; auto. intros b Hb. rewrite Bw by auto. f_equal. lia.
      - destruct (field_ok (p + i + 1)) as (w' & Ew' & Lw' & Bw'). rewrite Ew. cbn [bind]. rewrite shr64_Ok by lia. cbn [bind]. rewrite Ew'. cbn [bind]. rewrite shl64_Ok by lia. cbn [bind].
        eexists. split; [reflexivity|]. assert (LS : (N.lor (N.shiftr w (N.of_nat ins)) (wshl w' (N.of_nat (64 - ins))) < 2 ^ 64)%N).
        { assert (A : (N.shiftr w (N.of_nat ins) < 2 ^ 64)%N). { rewrite N.shiftr_div_pow2. apply N.le_lt_trans with w; auto. apply N.div_le_upper_bound; [apply N.pow_nonzero; lia|]. assert (2 ^ N.of_nat ins <> 0)%N by (apply N.pow_nonzero; lia). nia. }
          pose proof (wshl_small w' (N.of_nat (64 - ins))) as B. generalize A B. generalize (N.shiftr w (N.of_nat ins)) (wshl w' (N.of_nat (64 - ins))). clear. intros x y A B.
          destruct (N.eq_dec (N.lor x y) 0) as [E|E]; [rewrite E; reflexivity|]. apply N.log2_lt_pow2; [lia|]. rewrite N.log2_lor.
          destruct (N.eq_dec x 0) as [->|]; destruct (N.eq_dec y 0) as [->|]; cbn [N.log2]; try (apply N.max_lub_lt); try reflexivity; try (apply N.log2_lt_pow2; lia). }
        split; auto. intros b Hb. rewrite N.lor_spec, N.shiftr_spec', wshl_spec. replace (N.of_nat b + N.of_nat ins)%N with (N.of_nat (b + ins)) by lia.
        destruct (lt_dec (b + ins) 64) as [L|L].
        + rewrite Bw by auto. destruct (N.leb_spec (N.of_nat (64 - ins)) (N.of_nat b)); [lia|]. cbn [andb]. rewrite ?andb_false_r, ?andb_false_l, orb_false_r. f_equal. lia.
        + rewrite testbit_high by (auto; lia). cbn [orb]. destruct (N.leb_spec (N.of_nat (64 - ins)) (N.of_nat b)); [|lia]. destruct (N.ltb_spec (N.of_nat b) 64); [|lia]. cbn [andb].
          replace (N.of_nat b - N.of_nat (64 - ins))%N with (N.of_nat (b + ins - 64)) by lia. rewrite Bw' by lia. f_equal. lia. }
    destruct X as (m & -> & Lm & Bm). cbn [bind]. assert (LC : (N.land cand m < 2 ^ 64)%N) by (apply land_small; exact Hc).
    destruct (N.eqb_spec (N.land cand m) 0) as [Z|Z].
    + exists (N.land cand m). split; auto. split; auto. intros b Hb. rewrite Z, N.bits_0. symmetry. rewrite <- Bm by auto.
      assert (Y : N.testbit (N.land cand m) (N.of_nat b) = false) by (rewrite Z; apply N.bits_0). rewrite N.land_spec in Y. rewrite andb_assoc, Y. reflexivity.
    + destruct (IH i (N.land cand m) LC) as (r & Er & Lr & Br). exists r. split; auto. split; auto. intros b Hb. rewrite Br by auto. rewrite N.land_spec, Bm by auto. rewrite andb_assoc. reflexivity.
Qed.
Definition fits_at (q : nat) : bool := forallb (fun id => ext (q + (id - mn))) indices.
Lemma fits_M : fits_at M = true.
Proof using HR HI HM HF.
  unfold fits_at. apply forallb_forall. intros id H. pose proof (max_index_ge _ _ H). pose proof (min_index_le _ _ H). fold mn in H1. rewrite ext_l by lia. apply HF; lia.
Qed.
Lemma y_loop_ok : forall n i, (forall q, q < 64 * i -> fits_at q = false) -> i <= M / 64 -> M / 64 < i + n ->
  exists q, y_loop v mn indices (seq i n) = Ok (Some (Z.of_nat q - Z.of_nat mn)%Z) /\ fits_at q = true /\ forall q', q' < q -> fits_at q' = false.
Proof using HR HI HM HF.
  induction n as [|n IH]; intros i Hq Hi Hn; [lia|]. cbn [seq y_loop]. destruct (cand_ok indices i (2 ^ 64 - 1)%N ltac:(reflexivity)) as (r & -> & Lr & Br). cbn [bind].
  assert (Br' : forall b, b < 64 -> N.testbit r (N.of_nat b) = fits_at (64 * i + b)).
  { intros b Hb. rewrite Br by auto. change (2 ^ 64 - 1)%N with all_ones. rewrite all_ones_bits. destruct (N.ltb_spec (N.of_nat b) 64); [|lia]. reflexivity. }
  destruct (N.eqb_spec r 0) as [Z|Z].
  - apply IH; [| |lia].
    + intros q Lq. destruct (lt_dec q (64 * i)); auto. replace q with (64 * i + (q - 64 * i)) by lia. rewrite <- Br' by lia. rewrite Z. apply N.bits_0.
    + destruct (Nat.eq_dec i (M / 64)) as [E|]; [|lia]. exfalso. pose proof (Nat.div_mod M 64 ltac:(lia)) as DM. pose proof (Nat.mod_upper_bound M 64 ltac:(lia)) as MB.
      pose proof (Br' (M mod 64) MB) as B. rewrite Z, N.bits_0, E, <- DM, fits_M in B. discriminate.
  - destruct (ctz64_spec r Z Lr) as [C1 C2]. assert (LC : (ctz64 r < 64)%N). { destruct (N.lt_ge_cases (ctz64 r) 64); auto. rewrite testbit_high in C1 by auto. discriminate. }
    exists (64 * i + N.to_nat (ctz64 r)). split; [f_equal; f_equal; lia|]. split.
    + rewrite <- Br' by lia. rewrite N2Nat.id. exact C1.
    + intros q' Lq. destruct (lt_dec q' (64 * i)); auto. replace q' with (64 * i + (q' - 64 * i)) by lia. rewrite <- Br' by lia. apply C2. lia.
Qed.
Lemma last_in : forall (a : list nat) d, a <> [] -> In (last a d) a.
Proof. clear. induction a as [|x a IH]; intros d H; [congruence|]. destruct a as [|y a]; [left; reflexivity|]. right. apply IH. discriminate. Qed.
Theorem y_check_ok : exists q, y_check indices v = Ok (Z.of_nat q - Z.of_nat mn)%Z /\ q <= M /\ forall id, In id indices -> nth (q + (id - mn)) l false = true.
Proof using HR HI HM HF.
  unfold y_check. fold mn. destruct (y_loop_ok ((bv_size v + hd 0 indices - last indices 0) / 64 + 1) 0) as (q & E & F & Min).
  - intros; lia.
  - lia.
  - assert (M <= bv_size v + hd 0 indices - last indices 0).
    { destruct HR as (Hz & _). rewrite Hz. assert (H1 : In (hd 0 indices) indices) by (destruct indices; [congruence|left; reflexivity]). assert (H2 : In (last indices 0) indices) by (apply last_in; exact HI).
      pose proof (min_index_le _ _ H1). pose proof (max_index_ge _ _ H2). fold mn in H. lia. }
    pose proof (Nat.div_le_mono _ _ 64 ltac:(lia) H). lia.
  - rewrite E. cbn [bind]. exists q. split; auto. assert (LQ : q <= M). { destruct (le_lt_dec q M); auto. pose proof (Min M l0) as X. rewrite fits_M in X. discriminate. }
    split; auto. intros id H. unfold fits_at in F. rewrite forallb_forall in F. specialize (F id H). rewrite ext_l in F; auto. pose proof (max_index_ge _ _ H). lia.
Qed.
Lemma all_empty_ok : forall q, q <= M -> exists b, all_empty v (Z.of_nat q - Z.of_nat mn)%Z indices = Ok b /\ (b = true <-> forall id, In id indices -> nth (q + (id - mn)) l false = true).
Proof using HR HI HM HF.
  intros q Hq. unfold all_empty.
  assert (G : forall ids acc, (forall id, In id ids -> In id indices) -> exists b, foldM (fun found id => let p := (Z.of_nat q - Z.of_nat mn + Z.of_nat id)%Z in if (p <? 0)%Z then UB else do b <- bv_get v (Z.to_nat p); Ok (found && b)) ids acc = Ok b /\
    (b = true <-> acc = true /\ forall id, In id ids -> nth (q + (id - mn)) l false = true)).
  { induction ids as [|id ids IH]; intros acc Hs; cbn [foldM].
    - exists acc. split; auto. split; [intros; split; auto; intros id []|tauto].
    - assert (H : In id indices) by (apply Hs; left; reflexivity). pose proof (min_index_le _ _ H). pose proof (max_index_ge _ _ H). fold mn in H0. cbn zeta.
      destruct (Z.ltb_spec (Z.of_nat q - Z.of_nat mn + Z.of_nat id) 0); [lia|]. replace (Z.to_nat (Z.of_nat q - Z.of_nat mn + Z.of_nat id)) with (q + (id - mn)) by lia.
      rewrite (bv_get_rep v l) by (auto; lia). cbn [bind]. destruct (IH (acc && nth (q + (id - mn)) l false)) as (b & Eb & Hb); [intros; apply Hs; right; auto|]. exists b. split; auto.
      rewrite Hb, andb_true_iff. split.
      + intros [[A B] C]. split; auto. intros id' [<-|H']; auto.
      + intros [A B]. split; [split; auto; apply B; left; reflexivity|]. intros; apply B; right; auto. }
  destruct (G indices true (fun _ H => H)) as (b & Eb & Hb). exists b. split; auto. rewrite Hb. tauto.
Qed.
Theorem y_legacy_ok : exists q, y_check_legacy (S (bv_size v)) indices v (- Z.of_nat mn)%Z = Ok (Z.of_nat q - Z.of_nat mn)%Z /\ q <= M /\ forall id, In id indices -> nth (q + (id - mn)) l false = true.
Proof using HR HI HM HF.
  assert (G : forall fuel q, q <= M -> M < q + fuel -> exists r, y_check_legacy fuel indices v (Z.of_nat q - Z.of_nat mn)%Z = Ok (Z.of_nat r - Z.of_nat mn)%Z /\ r <= M /\ forall id, In id indices -> nth (r + (id - mn)) l false = true).
  { induction fuel as [|fuel IH]; intros q Hq Hf; [lia|]. cbn [y_check_legacy]. destruct (all_empty_ok q Hq) as (b & Eb & Hb). rewrite Eb. cbn [bind]. destruct b.
    - exists q. split; auto. split; auto. apply Hb. reflexivity.
    - destruct (Nat.eq_dec q M) as [->|NE].
      + exfalso. assert (false = true); [|discriminate]. apply Hb. intros id H. pose proof (max_index_ge _ _ H). apply HF; lia.
      + replace (Z.of_nat q - Z.of_nat mn + 1)%Z with (Z.of_nat (S q) - Z.of_nat mn)%Z by lia. apply IH; lia. }
  destruct (G (S (bv_size v)) 0) as (r & E & H); [lia|destruct HR as (Hz & _); lia|]. exists r. split; auto.
Qed.
End Pack.
