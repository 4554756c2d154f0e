(** The masks and the bit-length helpers as total functions. *)
From Coq Require Import List NArith ZArith Lia Bool Arith.
From Coq Require Import ZifyBool ZifyNat ZifyN.
From Verif Require Import Base Spec BitUtilModel BitUtilProof CalcModel CalcProof CalcProof2 FitVectorModel FitVectorProof.
Import ListNotations.
Local Open Scope nat_scope.

Lemma width_mask_exact : forall w, WidthMask w = if (w <? 64)%N then Ok (2 ^ w - 1)%N else UB.
Proof.
  intros w. unfold WidthMask, shl64. destruct (N.ltb_spec w 64) as [H|H]; [|reflexivity]. cbn [bind].
  f_equal. unfold wshl, wrap64. rewrite N.shiftl_1_l.
  assert (P : (2 ^ w < 2 ^ 64)%N) by (apply N.pow_lt_mono_r; lia). assert (2 ^ w <> 0)%N by (apply N.pow_nonzero; lia).
  rewrite N.mod_small by auto. unfold wsub.
  replace (2 ^ w + 2 ^ 64 - 1)%N with (2 ^ w - 1 + 1 * 2 ^ 64)%N by (change (2 ^ 64)%N with 18446744073709551616%N in *; lia).
  rewrite N.mod_add by discriminate. apply N.mod_small. lia.
Qed.

Lemma offset_mask_exact : forall o, OffsetMask o = if (o <? 64)%N then Ok (2 ^ o)%N else UB.
Proof.
  intros o. unfold OffsetMask, shl64. destruct (N.ltb_spec o 64) as [H|H]; [|reflexivity].
  f_equal. unfold wshl, wrap64. rewrite N.shiftl_1_l. apply N.mod_small. apply N.pow_lt_mono_r; lia.
Qed.

Lemma bextr_exact : forall x s len, bextr x s len = if (s <? 64)%N && (len <? 64)%N then Ok ((x / 2 ^ s) mod 2 ^ len)%N else UB.
Proof.
  intros. unfold bextr. rewrite width_mask_exact. unfold shr64. destruct (N.ltb_spec s 64); [|reflexivity]. cbn [bind andb].
  destruct (N.ltb_spec len 64); [|reflexivity]. cbn [bind]. f_equal.
  replace (2 ^ len - 1)%N with (N.ones len) by (rewrite N.ones_equiv; lia). rewrite N.land_ones, N.shiftr_div_pow2. reflexivity.
Qed.

Lemma units_exact : forall v u, (1 <= u)%N ->
  let k := ((N.of_nat (bits_needed v) + u - 1) / u)%N in
  SizeFitsInUnits v u = if (k * u <? 64)%N then Ok (N.to_nat k) else UB.
Proof.
  intros v u Hu k. destruct (bits_needed_spec v) as (B1 & B2 & B3). set (b := bits_needed v) in *.
  assert (K1 : (N.of_nat b <= k * u < N.of_nat b + u)%N).
  { unfold k. pose proof (N.div_mod (N.of_nat b + u - 1) u ltac:(lia)). pose proof (N.mod_upper_bound (N.of_nat b + u - 1) u ltac:(lia)). nia. }
  assert (K2 : forall j, (1 <= j < k)%N -> (2 ^ (j * u) <= v)%N).
  { intros j Hj. assert (j * u < N.of_nat b)%N by nia. replace (j * u)%N with (N.of_nat (N.to_nat (j * u))) by lia. apply B3; nia. }
  assert (K3 : (1 <= k)%N) by nia.
  unfold SizeFitsInUnits. destruct (N.ltb_spec (k * u) 64).
  - apply size_fits_loop_ok; try lia.
    + apply N.lt_le_trans with (2 ^ N.of_nat b)%N; auto. apply N.pow_le_mono_r; lia.
    + intros. apply K2. lia.
  - destruct (N.lt_ge_cases 63 u).
    + cbn [size_fits_loop]. rewrite shr64_UB by lia. reflexivity.
    + apply size_fits_loop_UB; auto; try lia. intros j Hj. destruct (Nat.eq_dec j 0).
      * subst. change (N.of_nat 0) with 0%N. rewrite N.mul_0_l. change (2 ^ 0)%N with 1%N.
        destruct (N.eq_dec v 0); [|lia]. subst v. change b with 1 in *. nia.
      * apply K2. nia.
Qed.

Lemma units_zero : forall v fuel size, 1 <= fuel -> size_fits_loop fuel v 0 size = if (v =? 0)%N then Ok (S size) else Fuel.
Proof.
  intros v fuel. induction fuel as [|fuel IH]; intros size H; [lia|]. cbn [size_fits_loop]. rewrite N.mul_0_r. unfold shr64. change (0 <? 64)%N with true. cbn [bind]. rewrite N.shiftr_0_r.
  destruct (N.eqb_spec v 0); auto. destruct fuel; [reflexivity|]. apply IH. lia.
Qed.

Lemma list_exact : forall sizes v size, 
  (forall k, size_fits_list_loop v sizes size = Ok (size + k) <->
    1 <= k <= length sizes /\ Forall (fun s => (s < 64)%N) (firstn k sizes) /\ (v < 2 ^ fold_right N.add 0 (firstn k sizes))%N /\
    (forall j, 1 <= j -> j < k -> (2 ^ fold_right N.add 0 (firstn j sizes) <= v)%N)) /\
  (size_fits_list_loop v sizes size = UB \/ exists k, size_fits_list_loop v sizes size = Ok (size + k)).
Proof.
  induction sizes as [|s sizes IH]; intros v size.
  - cbn [size_fits_list_loop length]. split; [|now left]. intros k. split; [discriminate|]. lia.
  - cbn [size_fits_list_loop]. unfold shr64. destruct (N.ltb_spec s 64) as [H|H]; cbn [bind].
    + rewrite shiftr_eqb0. destruct (N.ltb_spec v (2 ^ s)) as [L|L].
      * split; [|right; exists 1; f_equal; lia]. intros k. split.
        -- intros E. assert (k = 1) by (assert (S size = size + k) by congruence; lia). subst k. cbn [firstn fold_right length].
           rewrite N.add_0_r. split; [lia|]. split; [repeat constructor; auto|]. split; auto. lia.
        -- intros (K1 & K2 & K3 & K4). destruct (Nat.eq_dec k 1); [subst; f_equal; lia|]. specialize (K4 1 ltac:(lia) ltac:(lia)).
           cbn [firstn fold_right] in K4. rewrite N.add_0_r in K4. lia.
      * destruct (IH (N.shiftr v s) (S size)) as [A B].
        assert (SH : forall t, (N.shiftr v s < 2 ^ t)%N <-> (v < 2 ^ (s + t))%N).
        { intros t. rewrite N.shiftr_div_pow2. assert (2 ^ s <> 0)%N by (apply N.pow_nonzero; lia). rewrite N.pow_add_r. split; intros.
          - pose proof (N.div_mod v (2 ^ s) ltac:(auto)). pose proof (N.mod_upper_bound v (2 ^ s) ltac:(auto)). nia.
          - apply N.div_lt_upper_bound; auto. }
        split.
        -- intros [|k].
           ++ split; [|lia]. intros E. exfalso. destruct B as [B|(k & B)]; rewrite E in B; [discriminate|]. assert (size + 0 = S size + k) by congruence. lia.
           ++ replace (size + S k) with (S size + k) by lia. rewrite A. cbn [firstn fold_right length]. split.
              ** intros (K1 & K2 & K3 & K4). split; [lia|]. split; [constructor; auto|]. split; [now apply SH|].
                 intros [|j] J1 J2; [lia|]. cbn [firstn fold_right]. destruct (Nat.eq_dec j 0); [subst; cbn [firstn fold_right]; now rewrite N.add_0_r|].
                 specialize (K4 j ltac:(lia) ltac:(lia)). apply N.nlt_ge. intros F. apply SH in F. lia.
              ** intros (K1 & K2 & K3 & K4). inversion K2; subst. assert (k <> 0).
                 { intros ->. cbn [firstn fold_right] in K3. rewrite N.add_0_r in K3. lia. }
                 split; [lia|]. split; auto. split; [now apply SH|]. intros j J1 J2. specialize (K4 (S j) ltac:(lia) ltac:(lia)). cbn [firstn fold_right] in K4.
                 apply N.nlt_ge. intros F. apply SH in F. lia.
        -- destruct B as [B|(k & B)]; auto. right. exists (S k). rewrite B. f_equal. lia.
    + split; [|now left]. intros k. split; [discriminate|]. intros (K1 & K2 & _). destruct k; [lia|]. cbn [firstn] in K2. inversion K2. lia.
Qed.

Lemma first_bad : forall (l : list N), forallb (fun v => (v <? 2 ^ 63)%N) l = false ->
  exists a v b, l = a ++ v :: b /\ Forall (fun v => (v < 2 ^ 63)%N) a /\ (2 ^ 63 <= v)%N.
Proof.
  induction l as [|x l IH]; intros H; [discriminate|]. cbn [forallb] in H. destruct (N.ltb_spec x (2 ^ 63)).
  - destruct (IH H) as (a & v & b & -> & A & B). exists (x :: a), v, b. auto.
  - exists [], x, l. auto.
Qed.
Lemma forallb_below : forall l, forallb (fun v => (v <? 2 ^ 63)%N) l = true -> Forall (fun v => (v < 2 ^ 63)%N) l.
Proof. intros l H. apply Forall_forall. intros x I. rewrite forallb_forall in H. apply H in I. now apply N.ltb_lt. Qed.

Lemma frequencies_exact : forall l, bit_length_frequencies l =
  if forallb (fun v => (v <? 2 ^ 63)%N) l then Ok (map (fun k => count_if (fun v => bits_needed v =? S k) l) (seq 0 (max_bits l))) else UB.
Proof.
  intros l. destruct (forallb _ l) eqn:E.
  - apply forallb_below in E. destruct (bit_length_frequencies_spec l E) as (h & -> & L & H). f_equal.
    apply nth_ext with 0 0; [now rewrite map_length, seq_length|]. intros k Hk. rewrite L in Hk. rewrite H by auto.
    set (f := fun k : nat => count_if (fun v => bits_needed v =? S k) l). rewrite (nth_indep _ 0 (f 0)) by (now rewrite map_length, seq_length).
    rewrite map_nth, seq_nth by auto. reflexivity.
  - apply first_bad in E. destruct E as (a & v & b & -> & A & B). unfold bit_length_frequencies. rewrite foldM_app.
    destruct (blf_fold a [] ([], 0) A) as (st & -> & _).
    { unfold blf_inv, max_bits. simpl. repeat split; auto. intros; lia. }
    cbn [bind foldM]. unfold blf_step at 1. destruct st as [m s]. rewrite SizeFitsInBits_UB by auto. reflexivity.
Qed.

Lemma cumulative_exact : forall l, cummulative_frequency_list l =
  if forallb (fun v => (v <? 2 ^ 63)%N) l then Ok (map (fun k => count_if (fun v => k <? bits_needed v) l) (seq 0 (max_bits l))) else UB.
Proof.
  intros l. destruct (forallb _ l) eqn:E.
  - apply forallb_below in E. destruct (cummulative_frequency_list_spec l E) as (h & -> & L & H). f_equal.
    apply nth_ext with 0 0; [now rewrite map_length, seq_length|]. intros k Hk. rewrite L in Hk. rewrite H by auto.
    set (f := fun k : nat => count_if (fun v => k <? bits_needed v) l). rewrite (nth_indep _ 0 (f 0)) by (now rewrite map_length, seq_length).
    rewrite map_nth, seq_nth by auto. reflexivity.
  - unfold cummulative_frequency_list. rewrite frequencies_exact, E. reflexivity.
Qed.

Lemma list_total : forall v sizes,
  (forall k, SizeFitsAsList v sizes = Ok k <->
    1 <= k <= length sizes /\ Forall (fun s => (s < 64)%N) (firstn k sizes) /\ (v < 2 ^ fold_right N.add 0 (firstn k sizes))%N /\
    (forall j, 1 <= j -> j < k -> (2 ^ fold_right N.add 0 (firstn j sizes) <= v)%N)) /\
  (SizeFitsAsList v sizes = UB \/ exists k, SizeFitsAsList v sizes = Ok k).
Proof. intros v sizes. exact (list_exact sizes v 0). Qed.

Lemma bits_total : forall v, SizeFitsInBits v = if (v <? 2 ^ 63)%N then Ok (bits_needed v) else UB.
Proof. intros v. destruct (N.ltb_spec v (2 ^ 63)); [now apply SizeFitsInBits_ok|now apply SizeFitsInBits_UB]. Qed.

Lemma split_total : forall l mx, (N.of_nat (length l) < 2 ^ 57)%N -> split_positions l mx = match l with [] => Ok None | _ => UB end.
Proof.
  intros [|x l] mx HL; [reflexivity|]. destruct (forallb (fun v => (v <? 2 ^ 63)%N) (x :: l)) eqn:E.
  - apply split_positions_UB; [discriminate| |exact HL]. now apply forallb_below.
  - unfold split_positions, split_positions_gen. rewrite cumulative_exact, E. reflexivity.
Qed.

Lemma fv_of_list_total : forall l,
  if forallb (fun v => (v <? 2 ^ 63)%N) l then
    exists v, fv_of_list l = Ok v /\ fv_size v = length l /\ (forall i x, nth_error l i = Some x -> fv_get v i = Ok x) /\ fv_width v = max_bits l
  else fv_of_list l = UB.
Proof.
  intros l. destruct (forallb _ l) eqn:E.
  - apply forallb_below in E. destruct (fv_of_list_stmt l E) as (v & A & B & C & D). exists v. repeat split; auto.
    destruct l as [|x l]; [assert (v = fv_make 0) by (cbn in A; congruence); now subst|].
    destruct (D ltac:(discriminate)) as (D1 & D2 & D3). 
    assert (M : forall (l : list N) k, 1 <= k -> (Forall (fun x => (x < 2 ^ N.of_nat k)%N) l <-> max_bits l <= k)).
    { clear. intros l k Hk. unfold max_bits. induction l as [|x l IH]; cbn [map fold_right].
      - split; auto with arith.
      - pose proof (bits_needed_spec x) as (B1 & B2 & B3). split.
        + intros F. inversion F; subst. apply IH in H2. pose proof (bits_needed_le x k H1 Hk). lia.
        + intros F. constructor; [|apply IH; lia]. apply N.lt_le_trans with (2 ^ N.of_nat (bits_needed x))%N; auto. apply N.pow_le_mono_r; lia. }
    assert (X : 1 <= max_bits (x :: l)).
    { unfold max_bits. cbn [map fold_right]. pose proof (bits_needed_spec x) as (B1 & _). lia. }
    apply Nat.le_antisymm; [apply D3; auto; apply M; auto|apply M; auto].
  - apply first_bad in E. destruct E as (a & x & b & -> & _ & H). apply fv_of_list_UB with x; auto. apply in_or_app. right. now left.
Qed.
