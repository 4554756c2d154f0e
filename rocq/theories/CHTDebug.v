(** The compact hash table with assertions on behaves as without, apart from keys and values that do not fit. *)
From Coq Require Import List NArith ZArith Arith Bool Lia.
From Verif Require Import Base Spec Spec4 Spec8 BitUtilModel BitUtilProof FitVectorModel HashModel HashProof CHTWord CHTRun CDRWProof FoDebugModel CHTModel CHTDebugModel.
Import ListNotations.
Local Open Scope nat_scope.
Ltac Zify.zify_post_hook ::= idtac.

(** the debug computation does what the release one does unless the latter is undefined *)
Definition agrD {A} (md m : res A) : Prop := m = UB \/ md = m.
Lemma agr_eq : forall A (md m : res A), md = m -> agrD md m.
Proof. intros A md m H. right. exact H. Qed.
Lemma agr_bind : forall A B (md m : res A) (fd f : A -> res B), agrD md m -> (forall x, m = Ok x -> agrD (fd x) (f x)) -> agrD (bind md fd) (bind m f).
Proof.
  intros A B md m fd f [H|H] F.
  - left. rewrite H. reflexivity.
  - subst md. destruct m; cbn [bind]; try (right; reflexivity). apply F. reflexivity.
Qed.
Lemma eq_bind : forall A B (md m : res A) (fd f : A -> res B), md = m -> (forall x, m = Ok x -> fd x = f x) -> bind md fd = bind m f.
Proof. intros A B md m fd f H F. subst md. destruct m; cbn [bind]; auto. Qed.
Lemma inj_ok : forall A (a b : A), Ok a = Ok b -> a = b.
Proof. congruence. Qed.

Lemma get_in : forall v i, i < fv_size v -> fv_get_d v i = fv_get v i.
Proof. intros v i H. unfold fv_get_d. apply Nat.ltb_lt in H. rewrite H. reflexivity. Qed.
Lemma set_in : forall v i x, i < fv_size v -> fv_set_d v i x = fv_set v i x.
Proof. intros v i x H. unfold fv_set_d. apply Nat.ltb_lt in H. rewrite H. reflexivity. Qed.
Lemma set_keeps : forall v i x v', fv_set v i x = Ok v' -> fv_width v' = fv_width v /\ fv_size v' = fv_size v.
Proof. intros v i x v' H. unfold fv_set in H. apply bind_Ok_inv in H as (ws & _ & H). apply inj_ok in H. subst v'. split; reflexivity. Qed.
Lemma get_small : forall v i x, fv_get v i = Ok x -> (x < 2 ^ N.of_nat (fv_width v))%N.
Proof.
  intros v i x H. unfold fv_get, bits_read in H. apply bind_Ok_inv in H as (m & Em & H). apply bind_Ok_inv in H as (y & _ & H). apply bind_Ok_inv in H as (a & _ & H).
  unfold WidthMask in Em. destruct (N.ltb_spec (N.of_nat (fv_width v)) 64) as [Hw|Hw].
  2:{ unfold shl64 in Em. destruct (N.ltb_spec (N.of_nat (fv_width v)) 64); [lia|]. discriminate. }
  unfold shl64 in Em. destruct (N.ltb_spec (N.of_nat (fv_width v)) 64); [|lia]. cbn [bind] in Em. apply inj_ok in Em.
  assert (Hm : m = N.ones (N.of_nat (fv_width v))).
  { rewrite <- Em. unfold wshl, wrap64. rewrite N.shiftl_1_l, N.mod_small by (apply N.pow_lt_mono_r; lia). now rewrite mask_sub by lia. }
  rewrite Hm in H. destruct (fv_width v + _ <=? 64).
  - apply inj_ok in H. subst x. rewrite N.land_ones. apply N.mod_lt, N.pow_nonzero. lia.
  - apply bind_Ok_inv in H as (b & _ & H). apply bind_Ok_inv in H as (c & _ & H). apply inj_ok in H. subst x. rewrite N.land_ones. apply N.mod_lt, N.pow_nonzero. lia.
Qed.

Lemma bits_of_small : forall x n, (x < 2 ^ 64)%N -> (bits_of x <=? N.of_nat n)%N = (x <? 2 ^ N.of_nat n)%N.
Proof.
  intros x n H. unfold bits_of. rewrite value_bits by exact H. destruct (N.eq_dec x 0) as [->|Z].
  - cbn [N.size]. assert (0 < 2 ^ N.of_nat n)%N by (apply N.neq_0_lt_0, N.pow_nonzero; lia).
    destruct (N.leb_spec 0 (N.of_nat n)); [|lia]. symmetry. apply N.ltb_lt. lia.
  - rewrite N.size_log2 by exact Z. destruct (N.ltb_spec x (2 ^ N.of_nat n)) as [A|A].
    + apply N.leb_le. apply N.log2_lt_pow2 in A; [|lia]. lia.
    + apply N.leb_gt. apply N.log2_le_pow2 in A; [|lia]. lia.
Qed.

Lemma ihash_small : forall w x y, sm_ihash w x = Ok y -> (y < 2 ^ w)%N.
Proof.
  intros w x y H. unfold sm_ihash in H. apply bind_Ok_inv in H as (a & _ & H). apply bind_Ok_inv in H as (b & _ & H).
  unfold sm_ihash_ in H. apply bind_Ok_inv in H as (c & Ec & H). unfold mh_ihash in Ec. apply bind_Ok_inv in Ec as (row & Er & Ec).
  assert (Hw : (w < 64)%N).
  { destruct (N.ltb_spec w 64) as [Q|Q]; auto. assert (U : lget prime_table (N.to_nat w) = UB) by (apply lget_UB; change (length prime_table) with 64; lia). congruence. }
  apply bind_Ok_inv in Ec as (p & _ & Ec). apply inj_ok in Ec. rewrite mask_mod in Ec by exact Hw.
  assert (Hc : (c < 2 ^ w)%N) by (rewrite <- Ec; apply N.mod_lt, N.pow_nonzero; lia).
  destruct (xs_inverse w 0 c Hw ltac:(lia) Hc) as (z & Ez & Hz & _). unfold xs_ihash in H.
  rewrite Ez in H. apply inj_ok in H. subst y. exact Hz.
Qed.

Definition Sized (kb VW : nat) (t : cht) : Prop :=
  ch_key_bits t = kb /\ ch_bucket t = 2 ^ ch_bucket_bits t /\ fv_size (ch_arr t) = ch_bucket t /\ fv_size (ch_values t) = ch_bucket t /\ fv_width (ch_values t) = VW.
Lemma pow_pos : forall n, 0 < 2 ^ n.
Proof. intros n. induction n; cbn [Nat.pow]; lia. Qed.
Lemma pow_of_nat : forall n, N.of_nat (2 ^ n) = (2 ^ N.of_nat n)%N.
Proof. intros n. rewrite Nat2N.inj_pow. reflexivity. Qed.

Section Debug.
Variables (kb VW : nat).
Notation SZ := (Sized kb VW).

Lemma bucket_pos : forall t, SZ t -> 0 < ch_bucket t.
Proof. intros t (_ & H & _). rewrite H. apply pow_pos. Qed.
Lemma succ_in : forall t i, SZ t -> i < ch_bucket t -> cht_succ t i < ch_bucket t.
Proof. intros t i H Hi. unfold cht_succ. destruct (Nat.eqb_spec (i + 1) (ch_bucket t)); lia. Qed.
Lemma pred_in : forall t i, SZ t -> i < ch_bucket t -> cht_pred t i < ch_bucket t.
Proof. intros t i H Hi. unfold cht_pred. destruct (Nat.eqb_spec i 0); lia. Qed.
Lemma arr_get : forall t i, SZ t -> i < ch_bucket t -> fv_get_d (ch_arr t) i = fv_get (ch_arr t) i.
Proof. intros t i (_ & _ & H & _) Hi. apply get_in. lia. Qed.
Lemma val_get : forall t i, SZ t -> i < ch_bucket t -> fv_get_d (ch_values t) i = fv_get (ch_values t) i.
Proof. intros t i (_ & _ & _ & H & _) Hi. apply get_in. lia. Qed.
Lemma home_in : forall t h m, SZ t -> shl64 1 (N.of_nat (ch_bucket_bits t)) = Ok m -> N.to_nat (N.land h (wsub m 1)) < ch_bucket t.
Proof.
  intros t h m (_ & H & _) E. unfold shl64 in E. destruct (N.ltb_spec (N.of_nat (ch_bucket_bits t)) 64) as [Hw|]; [|discriminate]. apply inj_ok in E.
  unfold wshl, wrap64 in E. rewrite N.shiftl_1_l, N.mod_small in E by (apply N.pow_lt_mono_r; lia). subst m. rewrite mask_sub by exact Hw. rewrite N.land_ones, H.
  pose proof (N.mod_lt h (2 ^ N.of_nat (ch_bucket_bits t)) ltac:(apply N.pow_nonzero; lia)). rewrite <- pow_of_nat in H0. rewrite <- pow_of_nat. lia.
Qed.
Lemma locate_in : forall t k q i, SZ t -> cht_locate t k = Ok (q, i) -> i < ch_bucket t.
Proof.
  intros t k q i H E. unfold cht_locate in E. apply bind_Ok_inv in E as (h & _ & E). apply bind_Ok_inv in E as (quo & _ & E). apply bind_Ok_inv in E as (m & Em & E).
  apply inj_ok in E. assert (E2 : i = snd (q, i)) by reflexivity. rewrite <- E in E2. cbn [snd] in E2. subst i. eapply home_in; eauto.
Qed.

Lemma head_back_eq : forall fuel t i c, SZ t -> i < ch_bucket t -> head_back_d fuel t i c = head_back fuel t i c /\
  forall r, head_back fuel t i c = Ok r -> fst r < ch_bucket t.
Proof.
  induction fuel as [|fuel IH]; intros t i c H Hi; cbn [head_back head_back_d]; [split; [reflexivity|discriminate]|].
  assert (Hp := pred_in t i H Hi). rewrite arr_get by auto. destruct (fv_get (ch_arr t) (cht_pred t i)) as [w| | |]; cbn [bind]; try (split; [reflexivity|discriminate]).
  destruct (is_shifted w).
  - apply IH; auto.
  - split; [reflexivity|]. intros r E. apply inj_ok in E. subst r. exact Hp.
Qed.
Lemma head_forward_eq : forall fuel t i c, SZ t -> i < ch_bucket t -> head_forward_d fuel t i c = head_forward fuel t i c /\
  forall r, head_forward fuel t i c = Ok r -> r < ch_bucket t.
Proof.
  induction fuel as [|fuel IH]; intros t i c H Hi; destruct c as [|c]; cbn [head_forward head_forward_d]; try (split; [reflexivity|]; try discriminate; intros r E; apply inj_ok in E; subst r; exact Hi).
  assert (Hp := succ_in t i H Hi). rewrite arr_get by auto. destruct (fv_get (ch_arr t) (cht_succ t i)) as [w| | |]; cbn [bind]; try (split; [reflexivity|discriminate]).
  apply IH; auto.
Qed.
Lemma cluster_head_eq : forall t i, SZ t -> i < ch_bucket t -> to_cluster_head_d t i = to_cluster_head t i /\ forall r, to_cluster_head t i = Ok r -> r < ch_bucket t.
Proof.
  intros t i H Hi. unfold to_cluster_head, to_cluster_head_d. rewrite arr_get by auto.
  destruct (fv_get (ch_arr t) i) as [w| | |]; cbn [bind]; try (split; [reflexivity|discriminate]).
  destruct (is_shifted w); [|split; [reflexivity|]; intros r E; apply inj_ok in E; subst r; exact Hi].
  destruct (head_back_eq (S (ch_bucket t)) t i 0 H Hi) as (E & B). rewrite E.
  destruct (head_back (S (ch_bucket t)) t i 0) as [r| | |]; cbn [bind]; try (split; [reflexivity|discriminate]). apply head_forward_eq; auto.
Qed.
Lemma find_quotient_eq : forall fuel t q i, SZ t -> i < ch_bucket t -> find_quotient_d fuel t q i = find_quotient fuel t q i /\
  forall r, find_quotient fuel t q i = Ok r -> (match r with inl j => j | inr j => j end) < ch_bucket t.
Proof.
  induction fuel as [|fuel IH]; intros t q i H Hi; cbn [find_quotient find_quotient_d]; [split; [reflexivity|discriminate]|].
  rewrite arr_get by auto. destruct (fv_get (ch_arr t) i) as [w| | |]; cbn [bind]; try (split; [reflexivity|discriminate]).
  destruct (quotient t w) as [qw| | |]; cbn [bind]; try (split; [reflexivity|discriminate]).
  destruct (qw =? q)%N; [split; [reflexivity|]; intros r E; apply inj_ok in E; subst r; exact Hi|].
  assert (Hp := succ_in t i H Hi). rewrite arr_get by auto. destruct (fv_get (ch_arr t) (cht_succ t i)) as [w2| | |]; cbn [bind]; try (split; [reflexivity|discriminate]).
  destruct (is_continuation w2); [apply IH; auto|]. split; [reflexivity|]. intros r E. apply inj_ok in E. subst r. exact Hp.
Qed.
Lemma get_eq : forall t k, SZ t -> (k < 2 ^ N.of_nat kb)%N -> kb <= 64 -> cht_get_d t k = cht_get t k.
Proof.
  intros t k H Hk Hkb. unfold cht_get_d, cht_get. assert (K64 : (k < 2 ^ 64)%N) by (eapply N.lt_le_trans; [exact Hk|]; apply N.pow_le_mono_r; lia).
  replace (ch_key_bits t) with kb by (symmetry; apply H). rewrite bits_of_small by exact K64.
  apply N.ltb_lt in Hk. rewrite Hk. cbn [assert_that bind]. apply eq_bind; [reflexivity|]. intros (q, i) E. apply locate_in in E; auto.
  rewrite arr_get by auto. apply eq_bind; [reflexivity|]. intros w _. destruct (negb (is_occupied w)); [reflexivity|].
  destruct (cluster_head_eq t i H E) as (E1 & B1). apply eq_bind; [exact E1|]. intros j Ej. apply B1 in Ej.
  destruct (find_quotient_eq (S (ch_bucket t)) t q j H Ej) as (E2 & B2). apply eq_bind; [exact E2|]. intros r Er. apply B2 in Er.
  destruct r as [x|x]; [|reflexivity]. rewrite val_get by auto. reflexivity.
Qed.
Lemma get_unfit : forall t k, SZ t -> (k < 2 ^ 64)%N -> (2 ^ N.of_nat kb <= k)%N -> cht_get_d t k = Throw.
Proof.
  intros t k H K64 Hk. unfold cht_get_d. replace (ch_key_bits t) with kb by (symmetry; apply H). rewrite bits_of_small by exact K64.
  apply N.ltb_ge in Hk. rewrite Hk. reflexivity.
Qed.

(** ** Writes *)
Lemma put_word_eq : forall t i w, SZ t -> i < ch_bucket t -> put_word_d t i w = put_word t i w /\ forall t', put_word t i w = Ok t' -> SZ t' /\ ch_bucket t' = ch_bucket t.
Proof.
  intros t i w H Hi. unfold put_word_d, put_word. rewrite set_in by (destruct H as (_ & _ & H & _); lia). split; [reflexivity|].
  intros t' E. apply bind_Ok_inv in E as (a & Ea & E). apply inj_ok in E. subst t'. destruct (set_keeps _ _ _ _ Ea) as (W & S1). unfold Sized, with_arr in *. cbn. rewrite S1. intuition.
Qed.
Lemma put_value_eq : forall t i w, SZ t -> i < ch_bucket t -> put_value_d t i w = put_value t i w /\ forall t', put_value t i w = Ok t' -> SZ t' /\ ch_bucket t' = ch_bucket t.
Proof.
  intros t i w H Hi. unfold put_value_d, put_value. rewrite set_in by (destruct H as (_ & _ & _ & H & _); lia). split; [reflexivity|].
  intros t' E. apply bind_Ok_inv in E as (a & Ea & E). apply inj_ok in E. subst t'. destruct (set_keeps _ _ _ _ Ea) as (W & S1). unfold Sized, with_values in *. cbn. rewrite S1, W. intuition.
Qed.
Lemma counts_sized : forall t a b, SZ t -> SZ (with_counts t a b).
Proof. intros t a b H. exact H. Qed.
Lemma find_null_eq : forall fuel t j, SZ t -> j < ch_bucket t -> find_null_d fuel t j = find_null fuel t j /\ forall r, find_null fuel t j = Ok r -> r < ch_bucket t.
Proof.
  induction fuel as [|fuel IH]; intros t j H Hj; cbn [find_null find_null_d]; [split; [reflexivity|discriminate]|].
  assert (Hp := succ_in t j H Hj). rewrite arr_get by auto. destruct (fv_get (ch_arr t) (cht_succ t j)) as [w| | |]; cbn [bind]; try (split; [reflexivity|discriminate]).
  destruct (is_null w); [|apply IH; auto]. split; [reflexivity|]. intros r E. apply inj_ok in E. subst r. exact Hp.
Qed.
Lemma shift_slots_eq : forall fuel t i j, SZ t -> j < ch_bucket t -> shift_slots_d fuel t i j = shift_slots fuel t i j /\ forall t', shift_slots fuel t i j = Ok t' -> SZ t' /\ ch_bucket t' = ch_bucket t.
Proof.
  induction fuel as [|fuel IH]; intros t i j H Hj; cbn [shift_slots shift_slots_d]; [split; [reflexivity|discriminate]|].
  assert (Hp := pred_in t j H Hj). rewrite !arr_get by auto.
  destruct (fv_get (ch_arr t) j) as [wj| | |]; cbn [bind]; try (split; [reflexivity|discriminate]).
  destruct (fv_get (ch_arr t) (cht_pred t j)) as [wp| | |]; cbn [bind]; try (split; [reflexivity|discriminate]).
  destruct (quo_mask t) as [m| | |]; cbn [bind]; try (split; [reflexivity|discriminate]).
  match goal with |- context [put_word_d t j ?w] => destruct (put_word_eq t j w H Hj) as (E1 & B1); rewrite E1; destruct (put_word t j w) as [t1| | |]; cbn [bind]; try (split; [reflexivity|discriminate]) end.
  destruct (B1 t1 eq_refl) as (H1 & C1). rewrite val_get by (auto; lia). destruct (fv_get (ch_values t1) (cht_pred t j)) as [v| | |]; cbn [bind]; try (split; [reflexivity|discriminate]).
  destruct (put_value_eq t1 j v H1 ltac:(lia)) as (E2 & B2). rewrite E2. destruct (put_value t1 j v) as [t2| | |]; cbn [bind]; try (split; [reflexivity|discriminate]).
  destruct (B2 t2 eq_refl) as (H2 & C2).
  destruct (cht_pred t j =? i); cbn [assert_that bind].
  - split; [reflexivity|]. intros t' E. apply inj_ok in E. subst t'. split; auto. lia.
  - destruct (IH t2 i (cht_pred t j) H2 ltac:(lia)) as (E3 & B3). split; [exact E3|]. intros t' E. apply B3 in E as (A & B). split; auto. lia.
Qed.
Lemma overwrite_eq : forall t i v, SZ t -> i < ch_bucket t -> cht_overwrite_d t i v = cht_overwrite t i v /\ forall t', cht_overwrite t i v = Ok t' -> SZ t' /\ ch_bucket t' = ch_bucket t.
Proof.
  intros t i v H Hi. unfold cht_overwrite_d, cht_overwrite. rewrite arr_get by auto. destruct (fv_get (ch_arr t) i) as [w| | |]; cbn [bind]; try (split; [reflexivity|discriminate]).
  destruct (is_deleted w); cbn [bind]; [|apply put_value_eq; auto].
  destruct (put_word_eq t i (N.land w (wnot kDeletedMask)) H Hi) as (E1 & B1). rewrite E1. destruct (put_word t i _) as [t1| | |]; cbn [bind]; try (split; [reflexivity|discriminate]).
  destruct (B1 t1 eq_refl) as (H1 & C1). destruct (put_value_eq (with_counts t1 (size_up (ch_size t1)) (ch_used t1)) i v H1) as (E2 & B2); [cbn; lia|].
  split; [exact E2|]. intros t' E. apply B2 in E as (A & B). split; auto. cbn in B. lia.
Qed.
Lemma insert_at_eq : forall t q i0 i v, SZ t -> i0 < ch_bucket t -> i < ch_bucket t ->
  cht_insert_at_d t q i0 i v = cht_insert_at t q i0 i v /\ forall t', cht_insert_at t q i0 i v = Ok t' -> SZ t' /\ ch_bucket t' = ch_bucket t.
Proof.
  intros t q i0 i v H H0 Hi. unfold cht_insert_at_d, cht_insert_at. rewrite arr_get by auto.
  destruct (fv_get (ch_arr t) i) as [w| | |]; cbn [bind]; try (split; [reflexivity|discriminate]).
  assert (P1 : (if is_null w then Ok t else do j <- find_null_d (S (ch_bucket t)) t i; shift_slots_d (S (ch_bucket t)) t i j) =
               (if is_null w then Ok t else do j <- find_null (S (ch_bucket t)) t i; shift_slots (S (ch_bucket t)) t i j) /\
               forall t', (if is_null w then Ok t else do j <- find_null (S (ch_bucket t)) t i; shift_slots (S (ch_bucket t)) t i j) = Ok t' -> SZ t' /\ ch_bucket t' = ch_bucket t).
  { destruct (is_null w); [split; [reflexivity|]; intros t' E; apply inj_ok in E; subst t'; split; auto|].
    destruct (find_null_eq (S (ch_bucket t)) t i H Hi) as (E1 & B1). rewrite E1. destruct (find_null (S (ch_bucket t)) t i) as [j| | |]; cbn [bind]; try (split; [reflexivity|discriminate]).
    apply shift_slots_eq; auto. }
  destruct P1 as (E1 & B1). rewrite E1. clear E1. match goal with |- bind ?m _ = _ /\ _ => destruct m as [t1| | |] end; cbn [bind]; try (split; [reflexivity|discriminate]).
  destruct (B1 t1 eq_refl) as (H1 & C1). clear B1. rewrite !arr_get by (auto; lia). destruct (fv_get (ch_arr t1) i0) as [w0| | |]; cbn [bind]; try (split; [reflexivity|discriminate]).
  destruct (shl64 q 4) as [q4| | |]; cbn [bind]; try (split; [reflexivity|discriminate]).
  match goal with |- bind ?md _ = bind ?m _ /\ _ => assert (P2 : md = m /\ forall t', m = Ok t' -> SZ t' /\ ch_bucket t' = ch_bucket t) end.
  { destruct (negb (is_occupied w0)).
    - destruct (put_word_eq t1 i0 (N.lor w0 kOccupiedMask) H1 ltac:(lia)) as (E2 & B2). rewrite E2. destruct (put_word t1 i0 _) as [t2| | |]; cbn [bind]; try (split; [reflexivity|discriminate]).
      destruct (B2 t2 eq_refl) as (H2 & C2). rewrite arr_get by (auto; lia). destruct (fv_get (ch_arr t2) i) as [w2| | |]; cbn [bind]; try (split; [reflexivity|discriminate]).
      match goal with |- put_word_d t2 i ?x = _ /\ _ => destruct (put_word_eq t2 i x H2 ltac:(lia)) as (E3 & B3) end. split; [exact E3|]. intros t' E. apply B3 in E as (A & B). split; auto. lia.
    - destruct (fv_get (ch_arr t1) i) as [w2| | |]; cbn [bind]; try (split; [reflexivity|discriminate]).
      match goal with |- put_word_d t1 i ?x = _ /\ _ => destruct (put_word_eq t1 i x H1 ltac:(lia)) as (E3 & B3) end. split; [exact E3|]. intros t' E. apply B3 in E as (A & B). split; auto. lia. }
  destruct P2 as (E2 & B2). rewrite E2. clear E2. match goal with |- bind ?m _ = _ /\ _ => destruct m as [t2| | |] end; cbn [bind]; try (split; [reflexivity|discriminate]).
  destruct (B2 t2 eq_refl) as (H2 & C2). destruct (put_value_eq (with_counts t2 (size_up (ch_size t2)) (S (ch_used t2))) i v H2) as (E3 & B3); [cbn; lia|].
  split; [exact E3|]. intros t' E. apply B3 in E as (A & B). split; auto. cbn in B. lia.
Qed.
Lemma insert_eq : forall t k v, SZ t -> cht_insert_d t k v = cht_insert t k v /\ forall t', cht_insert t k v = Ok t' -> SZ t'.
Proof.
  intros t k v H. unfold cht_insert_d, cht_insert. destruct (cht_locate t k) as [(q, i0)| | |] eqn:El; cbn [bind]; try (split; [reflexivity|discriminate]).
  apply locate_in in El; auto. destruct (cluster_head_eq t i0 H El) as (E1 & B1). rewrite E1. clear E1.
  destruct (to_cluster_head t i0) as [i| | |]; cbn [bind]; try (split; [reflexivity|discriminate]). specialize (B1 i eq_refl).
  rewrite arr_get by auto. destruct (fv_get (ch_arr t) i0) as [w| | |]; cbn [bind]; try (split; [reflexivity|discriminate]).
  assert (P : (if is_occupied w then find_quotient_d (S (ch_bucket t)) t q i else Ok (inr i)) = (if is_occupied w then find_quotient (S (ch_bucket t)) t q i else Ok (inr i)) /\
    forall r, (if is_occupied w then find_quotient (S (ch_bucket t)) t q i else Ok (inr i)) = Ok r -> (match r with inl j => j | inr j => j end) < ch_bucket t).
  { destruct (is_occupied w); [apply find_quotient_eq; auto|]. split; [reflexivity|]. intros r E. apply inj_ok in E. subst r. exact B1. }
  destruct P as (E2 & B2). rewrite E2. clear E2. match goal with |- bind ?m _ = _ /\ _ => destruct m as [r| | |] end; cbn [bind]; try (split; [reflexivity|discriminate]).
  specialize (B2 r eq_refl). destruct r as [j|j].
  - destruct (overwrite_eq t j v H B2) as (E & B). split; auto. intros t' Q. apply (B t' Q).
  - destruct (insert_at_eq t q i0 j v H El B2) as (E & B). split; auto. intros t' Q. apply (B t' Q).
Qed.
Lemma erase_here_eq : forall t k, SZ t -> cht_erase_here_d t k = cht_erase_here t k /\ forall t', cht_erase_here t k = Ok t' -> SZ t'.
Proof.
  intros t k H. unfold cht_erase_here_d, cht_erase_here. destruct (sm_hash _ k) as [h| | |]; cbn [bind]; try (split; [reflexivity|discriminate]).
  destruct (ch_bucket_bits t =? 0); [split; [reflexivity|discriminate]|].
  destruct (shl64 1 (N.of_nat (ch_bucket_bits t))) as [m| | |] eqn:Em; cbn [bind]; try (split; [reflexivity|discriminate]).
  pose proof (home_in t h m H Em) as Hi. set (i0 := N.to_nat (N.land h (wsub m 1))) in *. rewrite arr_get by auto.
  destruct (fv_get (ch_arr t) i0) as [w| | |]; cbn [bind]; try (split; [reflexivity|discriminate]).
  destruct (negb (is_occupied w)); [split; [reflexivity|]; intros t' E; apply inj_ok in E; subst t'; exact H|].
  destruct (cluster_head_eq t i0 H Hi) as (E1 & B1). rewrite E1. clear E1. destruct (to_cluster_head t i0) as [i| | |]; cbn [bind]; try (split; [reflexivity|discriminate]). specialize (B1 i eq_refl).
  match goal with |- context [find_quotient_d _ _ ?q _] => destruct (find_quotient_eq (S (ch_bucket t)) t q i H B1) as (E2 & B2) end. rewrite E2. clear E2.
  match goal with |- bind ?m _ = _ /\ _ => destruct m as [r| | |] end; cbn [bind]; try (split; [reflexivity|discriminate]).
  specialize (B2 r eq_refl). destruct r as [j|j]; [|split; [reflexivity|]; intros t' E; apply inj_ok in E; subst t'; exact H].
  rewrite arr_get by auto. destruct (fv_get (ch_arr t) j) as [w2| | |]; cbn [bind]; try (split; [reflexivity|discriminate]).
  destruct (is_deleted w2); [split; [reflexivity|]; intros t' E; apply inj_ok in E; subst t'; exact H|].
  destruct (put_word_eq t j (N.lor w2 kDeletedMask) H B2) as (E3 & B3). rewrite E3. destruct (put_word t j _) as [t1| | |]; cbn [bind]; try (split; [reflexivity|discriminate]).
  split; [reflexivity|]. intros t' E. apply inj_ok in E. subst t'. apply counts_sized. apply (B3 t1 eq_refl).
Qed.
End Debug.
