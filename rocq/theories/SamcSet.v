(** Samc on arbitrary lists of keys: what is built depends only on the set of the keys read as C strings. *)
From Coq Require Import List NArith ZArith Arith Bool Lia.
From Verif Require Import Base BitUtilModel BitVectorModel BitVectorProof BitVectorProof2 SamcModel SamcPack SamcLevel.
Import ListNotations.
Local Open Scope nat_scope.
Ltac Zify.zify_post_hook ::= idtac.

(** ** packing does not depend on order or repetition *)
Definition same_set {A} (a b : list A) : Prop := forall x, In x a <-> In x b.
Lemma same_nil : forall A (a b : list A), same_set a b -> a = [] -> b = [].
Proof. intros A a [|y b] H ->; auto. destruct (proj2 (H y) (or_introl eq_refl)). Qed.
Lemma same_sym : forall A (a b : list A), same_set a b -> same_set b a.
Proof. intros A a b H x. symmetry. apply H. Qed.
Lemma min_same : forall a b, a <> [] -> same_set a b -> min_index b = min_index a.
Proof.
  intros a b Ha H. assert (Hb : b <> []) by (intros E; apply Ha; apply (same_nil _ b a); [now apply same_sym|auto]). apply Nat.le_antisymm.
  - apply min_index_le. apply H. now apply min_index_in.
  - apply min_index_le. apply H. now apply min_index_in.
Qed.
Lemma max_same : forall a b, a <> [] -> same_set a b -> max_index b = max_index a.
Proof.
  intros a b Ha H. assert (Hb : b <> []) by (intros E; apply Ha; apply (same_nil _ b a); [now apply same_sym|auto]). apply Nat.le_antisymm.
  - apply max_index_ge. apply H. now apply max_index_in.
  - apply max_index_ge. apply H. now apply max_index_in.
Qed.
Lemma fits_same : forall v a b q, a <> [] -> same_set a b -> fits_at v b q = fits_at v a q.
Proof.
  intros v a b q Ha H. unfold fits_at. rewrite (min_same a b Ha H). apply Bool.eq_iff_eq_true. rewrite !forallb_forall. split; intros G id Hid; apply G; apply H; auto.
Qed.
Lemma y_check_least : forall v l ids M, bv_rep v l -> ids <> [] -> M + (max_index ids - min_index ids) < length l -> (forall i, M <= i -> i < length l -> nth i l false = true) ->
  exists q, y_check ids v = Ok (Z.of_nat q - Z.of_nat (min_index ids))%Z /\ q <= M /\ fits_at v ids q = true /\ forall q', q' < q -> fits_at v ids q' = false.
Proof.
  intros v l ids M HR HI HM HF. unfold y_check. destruct (y_loop_ok v l ids M HR HI HM HF ((bv_size v + hd 0 ids - last ids 0) / 64 + 1) 0) as (q & E & F & Min).
  - intros; lia.
  - lia.
  - assert (M <= bv_size v + hd 0 ids - last ids 0).
    { destruct HR as (Hz & _). rewrite Hz. assert (H1 : In (hd 0 ids) ids) by (destruct ids; [congruence|left; reflexivity]). assert (H2 : In (last ids 0) ids) by (apply last_in; exact HI).
      pose proof (min_index_le _ _ H1). pose proof (max_index_ge _ _ H2). lia. }
    pose proof (Nat.div_le_mono _ _ 64 ltac:(lia) H). lia.
  - rewrite E. cbn [bind]. exists q. split; auto. split; [|auto]. destruct (le_lt_dec q M) as [|L]; auto. pose proof (Min M L) as X. rewrite (fits_M v l ids M HR HI HM HF) in X. discriminate.
Qed.
Definition fits_l (l : list bool) (ids : list nat) (q : nat) : Prop := forall id, In id ids -> nth (q + (id - min_index ids)) l false = true.
Lemma y_legacy_least : forall v l ids M, bv_rep v l -> ids <> [] -> M + (max_index ids - min_index ids) < length l -> (forall i, M <= i -> i < length l -> nth i l false = true) ->
  exists q, y_check_legacy (S (bv_size v)) ids v (- Z.of_nat (min_index ids))%Z = Ok (Z.of_nat q - Z.of_nat (min_index ids))%Z /\ q <= M /\ fits_l l ids q /\ forall q', q' < q -> ~ fits_l l ids q'.
Proof.
  intros v l ids M HR HI HM HF.
  assert (G : forall fuel q, q <= M -> M < q + fuel -> (forall q', q' < q -> ~ fits_l l ids q') -> exists r, y_check_legacy fuel ids v (Z.of_nat q - Z.of_nat (min_index ids))%Z = Ok (Z.of_nat r - Z.of_nat (min_index ids))%Z /\ r <= M /\ fits_l l ids r /\ forall q', q' < r -> ~ fits_l l ids q').
  { induction fuel as [|fuel IH]; intros q Hq Hf Hm; [lia|]. cbn [y_check_legacy]. destruct (all_empty_ok v l ids M HR HI HM HF q Hq) as (b & Eb & Hb). rewrite Eb. cbn [bind]. destruct b.
    - exists q. split; auto. split; auto. split; [exact (proj1 Hb eq_refl)|auto].
    - assert (Nq : ~ fits_l l ids q) by (intros C; apply (proj2 Hb) in C; discriminate). destruct (Nat.eq_dec q M) as [->|NE].
      + exfalso. apply Nq. intros id H. pose proof (max_index_ge _ _ H). apply HF; lia.
      + replace (Z.of_nat q - Z.of_nat (min_index ids) + 1)%Z with (Z.of_nat (S q) - Z.of_nat (min_index ids))%Z by lia. apply IH; try lia. intros q' Hq'. destruct (Nat.eq_dec q' q) as [->|]; [auto|apply Hm; lia]. }
  destruct (G (S (bv_size v)) 0) as (r & E & H); [lia|destruct HR as (Hz & _); lia|intros; lia|]. exists r. split; auto.
Qed.
Lemma y_same : forall (legacy : bool) v l a b M, bv_rep v l -> a <> [] -> same_set a b -> M + (max_index a - min_index a) < length l -> (forall i, M <= i -> i < length l -> nth i l false = true) ->
  exists q, q <= M /\ (if legacy then y_check_legacy (S (bv_size v)) a v (- Z.of_nat (min_index a))%Z else y_check a v) = Ok (Z.of_nat q - Z.of_nat (min_index a))%Z /\
    (if legacy then y_check_legacy (S (bv_size v)) b v (- Z.of_nat (min_index b))%Z else y_check b v) = Ok (Z.of_nat q - Z.of_nat (min_index a))%Z.
Proof.
  intros legacy v l a b M HR Ha H HM HF. assert (Hb : b <> []) by (intros E; apply Ha; apply (same_nil _ b a); [now apply same_sym|auto]). assert (HM' : M + (max_index b - min_index b) < length l) by (rewrite (min_same a b), (max_same a b); auto).
  destruct legacy.
  - destruct (y_legacy_least v l a M HR Ha HM HF) as (q & E1 & L1 & F1 & M1). destruct (y_legacy_least v l b M HR Hb HM' HF) as (q' & E2 & L2 & F2 & M2). exists q. split; auto. split; auto. rewrite E2. rewrite (min_same a b) by auto.
    assert (Fs : forall x, fits_l l b x <-> fits_l l a x) by (intros x; unfold fits_l; rewrite (min_same a b) by auto; split; intros G id Hid; apply G; apply H; auto).
    assert (q' = q); [|subst; auto]. destruct (Nat.lt_trichotomy q q') as [L|[->|L]]; auto; exfalso; [apply (M2 q L); now apply Fs|apply (M1 q' L); now apply Fs].
  - destruct (y_check_least v l a M HR Ha HM HF) as (q & E1 & L1 & F1 & M1). destruct (y_check_least v l b M HR Hb HM' HF) as (q' & E2 & L2 & F2 & M2). exists q. split; auto. split; auto. rewrite E2. rewrite (min_same a b) by auto.
    assert (q' = q); [|subst; auto]. destruct (Nat.lt_trichotomy q q') as [L|[->|L]]; auto; exfalso; [apply M2 in L|apply M1 in L]; rewrite (fits_same v a b) in * by auto; congruence.
Qed.

(** ** clearing bits *)
Definition clear_all (v : bitvec) (is : list nat) : res bitvec := foldM (fun v i => bv_set v i false) is v.
Lemma clear_ok : forall is v, small (bv_words v) -> (forall i, In i is -> i < 64 * length (bv_words v)) ->
  exists v', clear_all v is = Ok v' /\ bv_size v' = bv_size v /\ length (bv_words v') = length (bv_words v) /\ small (bv_words v') /\ forall j, bitat (bv_words v') j = bitat (bv_words v) j && negb (existsb (Nat.eqb j) is).
Proof.
  induction is as [|i is IH]; intros v Hs Hi; unfold clear_all in *; cbn [foldM existsb].
  - exists v. split; auto. split; auto. split; auto. split; auto. intros j. now rewrite andb_true_r.
  - unfold bv_set at 1. rewrite make_ref_Ok. cbn [bind]. destruct (ref_set_spec (bv_words v) i false) as (ws & E & L & S & B); auto; [apply Hi; now left|]. rewrite E. cbn [bind].
    destruct (IH (BV (bv_size v) ws)) as (v' & E' & Z' & L' & S' & B'); cbn [bv_words bv_size] in *; auto; [intros k Hk; rewrite L; apply Hi; now right|]. exists v'. split; auto. split; auto. split; [congruence|]. split; auto. intros j. rewrite B', B. destruct (Nat.eqb_spec j i) as [->|]; cbn [orb]; [now rewrite andb_false_r|reflexivity].
Qed.
Lemma word_ext : forall a b, (a < 2 ^ 64)%N -> (b < 2 ^ 64)%N -> (forall k, k < 64 -> N.testbit a (N.of_nat k) = N.testbit b (N.of_nat k)) -> a = b.
Proof. intros a b Ha Hb H. apply N.bits_inj. intros k. destruct (N.lt_ge_cases k 64) as [L|L]; [|rewrite !testbit_high; auto]. rewrite <- (N2Nat.id k). apply H. lia. Qed.
Lemma bv_ext : forall v w, bv_size v = bv_size w -> length (bv_words v) = length (bv_words w) -> small (bv_words v) -> small (bv_words w) -> (forall j, bitat (bv_words v) j = bitat (bv_words w) j) -> v = w.
Proof.
  intros [n a] [m b] Hn Hl Sa Sb H. cbn [bv_size bv_words] in *. subst m. f_equal. apply (nth_ext _ _ 0%N 0%N); auto. intros k Hk. apply word_ext; try now apply small_nth. intros o Ho. specialize (H (64 * k + o)). unfold bitat in H.
  replace ((64 * k + o) / 64) with k in H by (symmetry; rewrite Nat.mul_comm, Nat.div_add_l, (Nat.div_small o) by lia; lia). replace ((64 * k + o) mod 64) with o in H; auto. rewrite Nat.add_comm, Nat.mul_comm, Nat.mod_add by lia. symmetry. apply Nat.mod_small. exact Ho.
Qed.
Lemma clear_same : forall a b v, small (bv_words v) -> (forall i, In i a -> i < 64 * length (bv_words v)) -> same_set a b -> exists v', clear_all v a = Ok v' /\ clear_all v b = Ok v'.
Proof.
  intros a b v Hs Ha H. destruct (clear_ok a v Hs Ha) as (v1 & E1 & Z1 & L1 & S1 & B1). destruct (clear_ok b v Hs) as (v2 & E2 & Z2 & L2 & S2 & B2); [intros i Hi; apply Ha; now apply H|]. exists v1. split; auto. rewrite E2. f_equal. apply bv_ext; try congruence. intros j. rewrite B1, B2. f_equal. f_equal.
  apply Bool.eq_iff_eq_true. rewrite !existsb_exists. split; intros (x & Hx & E); exists x; (split; [now apply H|auto]).
Qed.
Lemma fold_max_le : forall l a, a <= fold_left Nat.max l a /\ (forall x, In x l -> x <= fold_left Nat.max l a) /\ (fold_left Nat.max l a = a \/ In (fold_left Nat.max l a) l).
Proof.
  intros l a. destruct (max_fold l a) as (H1 & H2 & H3). split; auto. split; [now apply Forall_forall|]. destruct H3 as [H3|H3]; auto.
Qed.
Lemma fold_max_same : forall a b n, same_set a b -> fold_left Nat.max a n = fold_left Nat.max b n.
Proof.
  intros a b n H. destruct (fold_max_le a n) as (A1 & A2 & A3). destruct (fold_max_le b n) as (B1 & B2 & B3). apply Nat.le_antisymm.
  - destruct A3 as [->|A3]; auto. apply B2. now apply H.
  - destruct B3 as [->|B3]; auto. apply A2. now apply H.
Qed.
