(** Proofs about CalcModel.v *)
From Coq Require Import List NArith ZArith Lia Bool Arith.
From Coq Require Import ZifyBool ZifyNat ZifyN.
From Verif Require Import Base Spec CalcModel.
Import ListNotations.
Ltac Zify.zify_post_hook ::= Z.div_mod_to_equations.

(** ** SizeFitsInUnits *)
Lemma shr64_Ok : forall x k, (k < 64)%N -> shr64 x k = Ok (N.shiftr x k).
Proof. intros. unfold shr64. destruct (N.ltb_spec k 64); auto; lia. Qed.
Lemma shr64_UB : forall x k, (64 <= k)%N -> shr64 x k = UB.
Proof. intros. unfold shr64. destruct (N.ltb_spec k 64); auto; lia. Qed.

Lemma shiftr_eqb0 : forall v k, N.eqb (N.shiftr v k) 0 = (v <? 2 ^ k)%N.
Proof.
  intros. rewrite N.shiftr_div_pow2. assert (2 ^ k <> 0)%N by (apply N.pow_nonzero; lia).
  destruct (N.ltb_spec v (2 ^ k)).
  - apply N.eqb_eq. now apply N.div_small.
  - apply N.eqb_neq. intro E. apply N.div_small_iff in E; auto. lia.
Qed.

Lemma size_fits_loop_ok : forall fuel v u size k, (1 <= u)%N -> size < k -> k - size <= fuel -> 
  (N.of_nat k * u < 64)%N -> (v < 2 ^ (N.of_nat k * u))%N ->
  (forall j, size < j -> j < k -> (2 ^ (N.of_nat j * u) <= v)%N) ->
  size_fits_loop fuel v u size = Ok k.
Proof.
  induction fuel; intros v u size k Hu Hs Hf Hk Hv Hj; [lia|].
  cbn [size_fits_loop]. rewrite shr64_Ok by (apply N.le_lt_trans with (N.of_nat k * u)%N; [apply N.mul_le_mono_r; lia|auto]).
  cbn [bind]. rewrite shiftr_eqb0.
  destruct (Nat.eq_dec (S size) k).
  - subst k. destruct (N.ltb_spec v (2 ^ (N.of_nat (S size) * u))); auto; lia.
  - specialize (Hj (S size)) as Hj1. destruct (N.ltb_spec v (2 ^ (N.of_nat (S size) * u))); [lia|].
    apply IHfuel; auto; try lia. intros. apply Hj; lia.
Qed.

Lemma size_fits_loop_UB : forall fuel v u size, (1 <= u)%N -> 64 <= fuel + size -> 1 <= fuel ->
  (forall j, (N.of_nat j * u < 64)%N -> (2 ^ (N.of_nat j * u) <= v)%N) ->
  size_fits_loop fuel v u size = UB.
Proof.
  induction fuel; intros v u size Hu Hf H1 Hj; [lia|].
  cbn [size_fits_loop]. destruct (N.lt_ge_cases (N.of_nat (S size) * u) 64) as [L|L].
  - rewrite shr64_Ok by auto. cbn [bind]. rewrite shiftr_eqb0.
    specialize (Hj (S size) L) as Hj1. destruct (N.ltb_spec v (2 ^ (N.of_nat (S size) * u))); [lia|].
    apply IHfuel; auto; try nia.
  - rewrite shr64_UB by auto. reflexivity.
Qed.

Lemma bits_needed_spec : forall v, 1 <= bits_needed v /\ (v < 2 ^ N.of_nat (bits_needed v))%N /\
  (forall j, 1 <= j -> j < bits_needed v -> (2 ^ N.of_nat j <= v)%N).
Proof.
  intros. unfold bits_needed. destruct (N.eqb_spec v 0).
  - subst. split; [lia|]. split; [reflexivity|]. intros; lia.
  - assert (0 < v)%N by lia. pose proof (N.log2_spec v H) as [L1 L2].
    split; [lia|]. split.
    + replace (N.of_nat (S (N.to_nat (N.log2 v)))) with (N.succ (N.log2 v)) by lia. auto.
    + intros. eapply N.le_trans; [|exact L1]. apply N.pow_le_mono_r; lia.
Qed.

Lemma bits_needed_le : forall v k, (v < 2 ^ N.of_nat k)%N -> 1 <= k -> bits_needed v <= k.
Proof.
  intros. destruct (bits_needed_spec v) as (A & B & C). destruct (Nat.le_gt_cases (bits_needed v) k); auto.
  specialize (C k H0 H1). lia.
Qed.

Lemma bits_needed_gt : forall v k, k < bits_needed v -> 1 <= k -> (2 ^ N.of_nat k <= v)%N.
Proof. intros. destruct (bits_needed_spec v) as (A & B & C). auto. Qed.

Lemma SizeFitsInBits_ok : forall v, (v < 2 ^ 63)%N -> SizeFitsInBits v = Ok (bits_needed v).
Proof.
  intros. destruct (bits_needed_spec v) as (A & B & C).
  assert (bits_needed v <= 63) by (apply bits_needed_le; [auto|lia]).
  apply size_fits_loop_ok; try lia; try (rewrite N.mul_1_r; auto).
  intros. rewrite N.mul_1_r. apply C; lia.
Qed.

Lemma SizeFitsInBits_UB : forall v, (2 ^ 63 <= v)%N -> SizeFitsInBits v = UB.
Proof.
  intros. apply size_fits_loop_UB; try lia. intros. rewrite N.mul_1_r in *.
  eapply N.le_trans; [|exact H]. apply N.pow_le_mono_r; lia.
Qed.

(** least k >= 1 with v < 256^k *)
Definition bytes_needed (v : N) : nat := (bits_needed v + 7) / 8.

Lemma bytes_needed_spec : forall v, 1 <= bytes_needed v /\ (v < 2 ^ (N.of_nat (bytes_needed v) * 8))%N /\
  (forall j, 1 <= j -> j < bytes_needed v -> (2 ^ (N.of_nat j * 8) <= v)%N).
Proof.
  intros. destruct (bits_needed_spec v) as (A & B & C). unfold bytes_needed.
  set (k := (bits_needed v + 7) / 8). assert (Hk : bits_needed v <= 8 * k /\ 8 * k < bits_needed v + 8) by lia.
  clearbody k. split; [lia|]. split.
  - eapply N.lt_le_trans; [exact B|]. apply N.pow_le_mono_r; lia.
  - intros. replace (N.of_nat j * 8)%N with (N.of_nat (8 * j)) by lia. apply C; lia.
Qed.

Lemma SizeFitsInBytes_ok : forall v, (v < 2 ^ 56)%N -> SizeFitsInBytes v = Ok (bytes_needed v).
Proof.
  intros. destruct (bytes_needed_spec v) as (A & B & C).
  assert (bytes_needed v <= 7).
  { unfold bytes_needed. assert (bits_needed v <= 56) by (apply bits_needed_le; [auto|lia]). lia. }
  apply size_fits_loop_ok; auto; try lia.
Qed.

Lemma SizeFitsInBytes_UB : forall v, (2 ^ 56 <= v)%N -> SizeFitsInBytes v = UB.
Proof.
  intros. apply size_fits_loop_UB; try lia. intros.
  eapply N.le_trans; [|exact H]. apply N.pow_le_mono_r; lia.
Qed.

(** forms for the property file *)
Lemma SizeFitsInBits_least : forall v, (v < 2 ^ 63)%N -> exists k, SizeFitsInBits v = Ok k /\ 1 <= k /\
  (v < 2 ^ N.of_nat k)%N /\ forall j, 1 <= j -> (v < 2 ^ N.of_nat j)%N -> k <= j.
Proof.
  intros. exists (bits_needed v). destruct (bits_needed_spec v) as (A & B & C).
  split; [now apply SizeFitsInBits_ok|]. repeat split; auto. intros. now apply bits_needed_le.
Qed.

Lemma SizeFitsInBytes_least : forall v, (v < 2 ^ 56)%N -> exists k, SizeFitsInBytes v = Ok k /\ 1 <= k /\
  (v < 256 ^ N.of_nat k)%N /\ forall j, 1 <= j -> (v < 256 ^ N.of_nat j)%N -> k <= j.
Proof.
  intros. exists (bytes_needed v). destruct (bytes_needed_spec v) as (A & B & C).
  split; [now apply SizeFitsInBytes_ok|]. change 256%N with (2 ^ 8)%N. 
  split; auto. split.
  - rewrite <- N.pow_mul_r, N.mul_comm. auto.
  - intros. destruct (Nat.le_gt_cases (bytes_needed v) j); auto. specialize (C j H0 H2).
    rewrite <- N.pow_mul_r, N.mul_comm in H1. lia.
Qed.

(** ** SizeFitsAsList *)
Definition prefix_sum (sizes : list N) (k : nat) : N := fold_right N.add 0%N (firstn k sizes).

Lemma size_fits_list_loop_ok : forall sizes v size k, Forall (fun s => (s < 64)%N) sizes ->
  1 <= k -> k <= length sizes -> (v < 2 ^ prefix_sum sizes k)%N ->
  (forall j, 1 <= j -> j < k -> (2 ^ prefix_sum sizes j <= v)%N) ->
  size_fits_list_loop v sizes size = Ok (size + k).
Proof.
  induction sizes; intros v size k HF H1 Hk Hv Hj; simpl in Hk; [lia|].
  inversion HF; subst. cbn [size_fits_list_loop]. rewrite shr64_Ok by auto. cbn [bind]. rewrite shiftr_eqb0.
  destruct (Nat.eq_dec k 1).
  - subst k. unfold prefix_sum in Hv. simpl in Hv. rewrite N.add_0_r in Hv.
    destruct (N.ltb_spec v (2 ^ a)); [f_equal; lia|lia].
  - assert (2 ^ a <= v)%N.
    { specialize (Hj 1). unfold prefix_sum in Hj. simpl in Hj. rewrite N.add_0_r in Hj. apply Hj; lia. }
    destruct (N.ltb_spec v (2 ^ a)); [lia|].
    assert (P : forall j, 1 <= j -> prefix_sum (a :: sizes) j = (a + prefix_sum sizes (j - 1))%N).
    { intros. destruct j; [lia|]. unfold prefix_sum. simpl. now rewrite Nat.sub_0_r. }
    rewrite (IHsizes _ _ (k - 1)); auto; try lia.
    + f_equal. lia.
    + rewrite N.shiftr_div_pow2. rewrite P, N.pow_add_r in Hv by lia. apply N.div_lt_upper_bound; auto.
      apply N.pow_nonzero; lia.
    + intros. rewrite N.shiftr_div_pow2. specialize (Hj (S j)). rewrite P, N.pow_add_r in Hj by lia.
      simpl in Hj. rewrite Nat.sub_0_r in Hj. apply N.div_le_lower_bound; [apply N.pow_nonzero; lia|]. apply Hj; lia.
Qed.

Lemma least_exists : forall (P : nat -> bool) n, 1 <= n -> P n = true -> exists k, 1 <= k /\ k <= n /\ P k = true /\ forall j, 1 <= j -> j < k -> P j = false.
Proof.
  intros P n. induction n as [n IH] using lt_wf_ind. intros H1 HP.
  destruct (existsb P (seq 1 (n - 1))) eqn:E.
  - apply existsb_exists in E. destruct E as (j & Hj & Pj). apply in_seq in Hj.
    destruct (IH j) as (k & A & B & C & D); auto; try lia. exists k. repeat split; auto; lia.
  - exists n. repeat split; auto. intros. destruct (P j) eqn:Ej; auto.
    assert (existsb P (seq 1 (n - 1)) = true); [|congruence].
    apply existsb_exists. exists j. split; auto. apply in_seq. lia.
Qed.

Lemma SizeFitsAsList_least : forall v sizes, Forall (fun s => (s < 64)%N) sizes ->
  (exists k, 1 <= k <= length sizes /\ (v < 2 ^ fold_right N.add 0 (firstn k sizes))%N) ->
  exists k, SizeFitsAsList v sizes = Ok k /\ 1 <= k <= length sizes /\
    (v < 2 ^ fold_right N.add 0 (firstn k sizes))%N /\
    (forall j, 1 <= j -> j < k -> (2 ^ fold_right N.add 0 (firstn j sizes) <= v)%N).
Proof.
  intros v sizes HF (n & Hn & Hv).
  destruct (least_exists (fun k => (v <? 2 ^ prefix_sum sizes k)%N) n) as (k & A & B & C & D); try lia.
  { unfold prefix_sum. lia. }
  apply N.ltb_lt in C. exists k. split; [|split; [lia|split; auto]].
  - unfold SizeFitsAsList. rewrite (size_fits_list_loop_ok _ _ _ k); auto; try lia.
    intros. specialize (D j H H0). apply N.ltb_ge in D. auto.
  - intros. specialize (D j H H0). apply N.ltb_ge in D. auto.
Qed.

(** ** Histogram *)
Lemma max_bits_app : forall l v, max_bits (l ++ [v]) = Nat.max (max_bits l) (bits_needed v).
Proof. induction l; intros; unfold max_bits in *; simpl in *; [lia|]. rewrite IHl. lia. Qed.

Lemma count_if_app : forall A (p : A -> bool) l l', count_if p (l ++ l') = count_if p l + count_if p l'.
Proof. intros. unfold count_if. rewrite filter_app, app_length. auto. Qed.

Lemma count_if_cons : forall A (p : A -> bool) a l, count_if p (a :: l) = (if p a then 1 else 0) + count_if p l.
Proof. intros. unfold count_if. simpl. destruct (p a); auto. Qed.

Lemma count_if_ext : forall A (p q : A -> bool) l, (forall x, In x l -> p x = q x) -> count_if p l = count_if q l.
Proof. induction l; intros; auto. rewrite !count_if_cons, H, IHl by (simpl; auto; intros; apply H; simpl; auto). auto. Qed.

Lemma count_if_false : forall A (p : A -> bool) l, (forall x, In x l -> p x = false) -> count_if p l = 0.
Proof. induction l; intros; auto. rewrite count_if_cons, H, IHl by (simpl; auto; intros; apply H; simpl; auto). auto. Qed.

Lemma max_bits_In : forall l v, In v l -> bits_needed v <= max_bits l.
Proof. induction l; intros v H; destruct H; unfold max_bits in *; simpl; subst; [lia|]. specialize (IHl v H). lia. Qed.

Definition blf_inv (pre : list N) (st : list nat * nat) : Prop :=
  length (fst st) = max_bits pre /\ snd st = max_bits pre /\
  forall k, k < max_bits pre -> nth k (fst st) 0 = count_if (fun v => bits_needed v =? S k) pre.

Lemma blf_step_inv : forall pre v st, (v < 2 ^ 63)%N -> blf_inv pre st ->
  exists st', blf_step st v = Ok st' /\ blf_inv (pre ++ [v]) st'.
Proof.
  intros pre v [map mx] Hv (Hl & Hm & Hc). simpl in *. unfold blf_step.
  rewrite SizeFitsInBits_ok by auto. cbn [bind]. subst mx.
  assert (H1 : 1 <= bits_needed v) by apply bits_needed_spec.
  set (b := bits_needed v) in *.
  set (mp := if max_bits pre <? b then lresize map b 0 else map).
  set (mx := Nat.max (max_bits pre) b).
  assert (E : (if max_bits pre <? b then (lresize map b 0, b) else (map, max_bits pre)) = (mp, mx)).
  { subst mp mx. destruct (Nat.ltb_spec (max_bits pre) b); f_equal; lia. }
  rewrite E. clear E.
  assert (Lmp : length mp = mx).
  { subst mp mx. destruct (Nat.ltb_spec (max_bits pre) b); [rewrite lresize_length|]; lia. }
  assert (Nmp : forall k, k < mx -> nth k mp 0 = count_if (fun v => bits_needed v =? S k) pre).
  { intros k Hk. subst mp. destruct (Nat.ltb_spec (max_bits pre) b).
    - rewrite nth_lresize by (subst mx; lia). rewrite Hl. destruct (Nat.ltb_spec k (max_bits pre)); auto.
      symmetry. apply count_if_false. intros x Hx. apply max_bits_In in Hx. lia.
    - apply Hc. subst mx. lia. }
  rewrite (lget_nth _ mp (b - 1) 0) by lia. cbn [bind].
  rewrite lset_Ok by lia. cbn [bind]. eexists. split; [reflexivity|].
  unfold blf_inv. simpl. rewrite upd_length, max_bits_app. fold b. fold mx. split; auto. split; auto.
  intros k Hk. rewrite nth_upd, count_if_app, count_if_cons. fold b.
  rewrite Lmp. unfold count_if at 2. simpl length.
  destruct (Nat.eqb_spec k (b - 1)), (Nat.ltb_spec (b - 1) mx); simpl; try lia.
  - subst k. rewrite Nmp by auto. destruct (Nat.eqb_spec b (S (b - 1))); try lia.
  - rewrite Nmp by auto. destruct (Nat.eqb_spec b (S k)); lia.
Qed.

Lemma blf_fold : forall l pre st, Forall (fun v => (v < 2 ^ 63)%N) l -> blf_inv pre st ->
  exists st', foldM blf_step l st = Ok st' /\ blf_inv (pre ++ l) st'.
Proof.
  induction l; intros pre st HF Hi.
  - exists st. rewrite app_nil_r. auto.
  - inversion HF; subst. destruct (blf_step_inv pre a st) as (st' & E & Hi'); auto.
    simpl. rewrite E. simpl. destruct (IHl _ _ H2 Hi') as (st'' & E2 & Hi''). exists st''.
    rewrite <- app_assoc in Hi''. auto.
Qed.

Lemma bit_length_frequencies_spec : forall l, Forall (fun v => (v < 2 ^ 63)%N) l ->
  exists h, bit_length_frequencies l = Ok h /\ length h = max_bits l /\
    forall k, k < max_bits l -> nth k h 0 = count_if (fun v => bits_needed v =? S k) l.
Proof.
  intros. destruct (blf_fold l [] ([], 0) H) as ([h mx] & E & Hl & Hm & Hc).
  { unfold blf_inv, max_bits. simpl. repeat split; auto. intros; lia. }
  exists h. unfold bit_length_frequencies, rmap. rewrite E. simpl in *. auto.
Qed.

(** cumulative list *)
Lemma skipn_S_sum : forall l k, k < length l -> list_sum_nat (skipn k l) = nth k l 0 + list_sum_nat (skipn (S k) l).
Proof.
  induction l; intros k H; simpl in H; [lia|]. destruct k; [reflexivity|].
  change (skipn (S k) (a :: l)) with (skipn k l). change (skipn (S (S k)) (a :: l)) with (skipn (S k) l).
  apply IHl. lia.
Qed.


Lemma list_sum_nat_app : forall a b, list_sum_nat (a ++ b) = list_sum_nat a + list_sum_nat b.
Proof. induction a; intros; simpl; auto. unfold list_sum_nat in *. rewrite IHa. lia. Qed.

Lemma cfl_loop : forall map n cf count, n <= length map -> length cf = length map ->
  (forall k, n <= k -> k < length map -> nth k cf 0 = list_sum_nat (skipn k map)) ->
  count = list_sum_nat (skipn n map) ->
  exists cf' c', foldM (cfl_step map) (rev (seq 1 n)) (cf, count) = Ok (cf', c') /\
     length cf' = length map /\ (forall k, k < length map -> nth k cf' 0 = list_sum_nat (skipn k map)).
Proof.
  intros map n. induction n; intros cf count Hn Hl Hc Hcount.
  - exists cf, count. repeat split; auto. intros; apply Hc; lia.
  - rewrite seq_S, rev_app_distr. change (rev [1 + n] ++ rev (seq 1 n)) with (S n :: rev (seq 1 n)). cbn [foldM]. unfold cfl_step at 1.
    replace (S n - 1) with n by lia. rewrite (lget_nth _ map n 0) by lia. cbn [bind].
    rewrite lset_Ok by lia. cbn [bind].
    assert (S : list_sum_nat (skipn n map) = nth n map 0 + list_sum_nat (skipn (S n) map)).
    { apply skipn_S_sum. lia. }
    apply IHn; try (rewrite upd_length; auto); try lia.
    intros k H1 H2. rewrite nth_upd. rewrite Hl. destruct (Nat.eqb_spec k n), (Nat.ltb_spec n (length map)); simpl; try lia.
    + subst k. lia.
    + apply Hc; lia.
Qed.

Lemma skipn_hist_sum : forall l h n, length h = n -> (forall v, In v l -> 1 <= bits_needed v <= n) ->
  (forall k, k < n -> nth k h 0 = count_if (fun v => bits_needed v =? S k) l) ->
  forall k, k <= n -> list_sum_nat (skipn k h) = count_if (fun v => k <? bits_needed v) l.
Proof.
  intros l h n Hl Hb Hc k Hk. remember (n - k) as d. revert k Hk Heqd. induction d; intros.
  - assert (k = n) by lia. subst k. rewrite skipn_all2 by lia. symmetry. apply count_if_false.
    intros. specialize (Hb x H). lia.
  - assert (S : list_sum_nat (skipn k h) = nth k h 0 + list_sum_nat (skipn (S k) h)).
    { apply skipn_S_sum. lia. }
    rewrite S, Hc, (IHd (Datatypes.S k)) by lia. clear. induction l; auto. rewrite !count_if_cons.
    rewrite <- IHl. destruct (Nat.eqb_spec (bits_needed a) (Datatypes.S k)), (Nat.ltb_spec (Datatypes.S k) (bits_needed a)), (Nat.ltb_spec k (bits_needed a)); lia.
Qed.

Lemma cummulative_frequency_list_spec : forall l, Forall (fun v => (v < 2 ^ 63)%N) l ->
  exists cf, cummulative_frequency_list l = Ok cf /\ length cf = max_bits l /\
    forall k, k < max_bits l -> nth k cf 0 = count_if (fun v => k <? bits_needed v) l.
Proof.
  intros. destruct (bit_length_frequencies_spec l H) as (h & E & Hl & Hc).
  unfold cummulative_frequency_list, rmap. rewrite E. cbn [bind].
  destruct (cfl_loop h (length h) (repeat 0 (length h)) 0) as (cf & c & E2 & L2 & N2).
  - lia.
  - apply repeat_length.
  - intros; lia.
  - now rewrite skipn_all.
  - rewrite E2. simpl. exists cf. split; auto. split; [lia|]. intros. rewrite N2 by lia.
    apply (skipn_hist_sum l h (max_bits l)); auto; try lia.
    intros. split; [apply bits_needed_spec|now apply max_bits_In].
Qed.
