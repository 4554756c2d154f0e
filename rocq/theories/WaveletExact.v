(** What the constructor and rank(c,i) of WaveletTree do in every case. *)
From Coq Require Import List NArith ZArith Arith Bool Lia.
From Verif Require Import Base Spec Spec2 BitUtilModel BitUtilProof2 BitVectorModel BitVectorProof CalcModel CalcProof FitVectorModel FitVectorProof SuccinctModel SuccinctProof WaveletModel WaveletProof.
Import ListNotations.
Local Open Scope nat_scope.

Lemma wt_make_undefined : forall l, l = [] \/ Exists (fun x => (2 ^ 31 <= x)%N) l -> wt_make l = UB.
Proof.
  intros l [-> |E]; [reflexivity|]. apply Exists_exists in E. destruct E as (x & I & X).
  destruct l as [|a l'] eqn:El; [destruct I|]. rewrite <- El in *. assert (M : (x <= max_element l)%N) by (now apply max_element_le). unfold wt_make. rewrite El. rewrite <- El.
  destruct (N.lt_ge_cases (max_element l) (2 ^ 63)) as [H|H]; [|now rewrite SizeFitsInBits_UB].
  rewrite SizeFitsInBits_ok by auto. cbn [bind]. destruct (Nat.leb_spec 32 (bits_needed (max_element l))) as [|C]; auto.
  destruct (bits_needed_spec (max_element l)) as (_ & B & _). assert (2 ^ N.of_nat (bits_needed (max_element l)) <= 2 ^ 31)%N by (apply N.pow_le_mono_r; lia). lia.
Qed.

Lemma wt_size_ok : forall l, l <> [] -> Forall (fun x => (x < 2 ^ 31)%N) l -> exists t, wt_make l = Ok t /\ wt_size t = Ok (length l).
Proof.
  intros l Hl F. destruct (wt_make_ok l Hl F) as (t & E & W & Fh & H1 & Eh). exists t. split; auto. unfold wt_size.
  clear Eh. destruct (wt_height t) as [|h]; [lia|]. destruct W as (L & W). specialize (W h 0%N ltac:(lia)). rewrite Nat.sub_diag in W.
  specialize (W ltac:(vm_compute; reflexivity)). change (nid 0 0 - 1) with 0 in W.
  assert (0 < length (wt_nodes t)) by (rewrite L, Nat.pow_succ_r'; pose proof (Nat.pow_nonzero 2 h); lia).
  rewrite (lget_nth _ _ 0 sb_default) by auto. cbn [bind]. f_equal. unfold sb_size. destruct W as ((Z & _) & _).
  rewrite Z. unfold nbits. rewrite map_length. pose proof (cnt_top (S h) l Fh) as C. unfold cnt in C. exact C.
Qed.

Definition ends (k : nat) (c : N) (l : list N) (i : nat) : Prop := sharing k c (firstn i l) = sharing k c l /\ sharing k c l mod 64 = 0 /\ sharing k c l <> 0.
Lemma sharing_firstn : forall k c l i, sharing k c (firstn i l) <= sharing k c l.
Proof. intros. rewrite <- !cnt_sharing. unfold cnt. rewrite <- (firstn_skipn i l) at 2. rewrite filter_app, app_length. lia. Qed.
Lemma ends_dec : forall k c l i, {ends k c l i} + {safe k c l i}.
Proof.
  intros. pose proof (sharing_firstn k c l i). unfold ends, safe. rewrite !cnt_sharing.
  destruct (Nat.eq_dec (sharing k c (firstn i l)) (sharing k c l)); [|right; lia]. destruct (Nat.eq_dec (sharing k c l mod 64) 0); [|right; auto].
  destruct (Nat.eq_dec (sharing k c l) 0); [right; auto|left; auto].
Qed.
Lemma child_UB : forall n k c l i b, sbv_ok n (nbits k (pre (S k) c) l) -> ends (S k) c l i -> wt_child n b (cnt (S k) (pre (S k) c) (firstn i l)) = UB.
Proof.
  intros n k c l i b O (E1 & E2 & E3). rewrite <- !cnt_sharing in *.
  assert (Ln : length (nbits k (pre (S k) c) l) = cnt (S k) (pre (S k) c) l) by (unfold nbits, cnt; now rewrite map_length).
  rewrite E1, <- Ln. assert (R : sb_rank n (length (nbits k (pre (S k) c) l)) = UB). { apply rank_full_UB; auto; [|now rewrite Ln]. intros Z. rewrite Z in Ln. cbn [length] in Ln. lia. }
  unfold wt_child, sb_rank0. rewrite R. destruct b; reflexivity.
Qed.
Lemma rank_c_UB : forall h nodes l c i, wok h nodes l -> (c < 2 ^ N.of_nat h)%N -> (N.of_nat (length l) < 2 ^ 64)%N ->
  forall k, k <= h -> (exists k', k' < k /\ ends (S k') c l i) -> wt_rank_c_loop k nodes c (nid (h - k) (pre k c)) (cnt k (pre k c) (firstn i l)) = UB.
Proof.
  intros h nodes l c i W Hc HL. induction k as [|k IH]; intros Hk (k' & Hk' & X); [lia|].
  cbn [wt_rank_c_loop]. destruct (node_get h nodes l k c W ltac:(lia) Hc) as (n & E & O). rewrite E. cbn [bind].
  fold (bitk k c). destruct (ends_dec (S k) c l i) as [D|D]; [now rewrite (child_UB n k c l i _ O D)|].
  rewrite (child_ok n k (pre (S k) c) l i (bitk k c) O HL D). cbn [bind].
  rewrite next_of by lia. rewrite <- pre_S. apply IH; [lia|]. exists k'. split; auto. destruct (Nat.eq_dec k' k) as [-> |]; [|lia].
  exfalso. destruct X as (X1 & X2 & X3). unfold safe in D. rewrite !cnt_sharing in D. lia.
Qed.
Lemma wt_rank_c_exact : forall l c i, l <> [] -> Forall (fun x => (x < 2 ^ 31)%N) l -> (N.of_nat (length l) < 2 ^ 63)%N -> i <= length l -> (c < 256)%N ->
  exists t, wt_make l = Ok t /\ let c' := (c mod 2 ^ N.of_nat (bits_needed (max_element l)))%N in
  ((exists k, 1 <= k <= bits_needed (max_element l) /\ sharing k c' (firstn i l) = sharing k c' l /\ sharing k c' l mod 64 = 0 /\ sharing k c' l <> 0) -> wt_rank_c t c i = UB) /\
  (~ (exists k, 1 <= k <= bits_needed (max_element l) /\ sharing k c' (firstn i l) = sharing k c' l /\ sharing k c' l mod 64 = 0 /\ sharing k c' l <> 0) -> wt_rank_c t c i = Ok (count_if (fun x => (x =? c')%N) (firstn i l))).
Proof.
  intros l c i Hl F HL Hi Hc. pose proof (length64 _ _ HL) as HL'. destruct (wt_make_ok l Hl F) as (t & E & W & Fh & H1 & Eh). exists t. split; auto. intros c'.
  assert (Hc' : (c' < 2 ^ N.of_nat (bits_needed (max_element l)))%N) by (apply N.mod_lt, N.pow_nonzero; lia).
  assert (Hc2 : (c' < 256)%N) by (apply N.le_lt_trans with c; auto; apply N.mod_le, N.pow_nonzero; lia).
  assert (Q : wt_rank_c t c i = wt_rank_c t c' i).
  { rewrite wt_rank_c_high. rewrite (N.mod_small c 256) by auto. rewrite Eh. reflexivity. }
  split; intros X.
  - rewrite Q. destruct X as (k & K & X). unfold wt_rank_c. rewrite N.mod_small by auto. rewrite <- Eh in *.
    pose proof (rank_c_UB (wt_height t) _ l c' i W Hc' HL' (wt_height t) (le_n _)) as R. rewrite Nat.sub_diag, pre_top in R by auto. rewrite start_idx in R by auto. apply R.
    exists (k - 1). split; [lia|]. replace (S (k - 1)) with k by lia. exact X.
  - rewrite Q. destruct (wt_rank_c_reads l c' i Hl F HL Hi Hc2 Hc') as (t' & E' & R).
    + intros k K. destruct (ends_dec k c' l i) as [D|D]; [exfalso; apply X; exists k; split; auto|]. unfold safe in D. now rewrite !cnt_sharing in D.
    + rewrite E in E'. injection E' as <-. exact R.
Qed.

Lemma WidthMask_ok : forall d, d < 64 -> WidthMask (N.of_nat d) = Ok (2 ^ N.of_nat d - 1)%N.
Proof. intros d D. rewrite WidthMask_ones by lia. now rewrite N.ones_equiv, N.sub_1_r. Qed.
Lemma node_diff_ok : forall node diff, (node < 2 ^ 63)%N -> diff <= bits_needed node ->
  wt_node_diff node (N.of_nat diff) = Ok (2 ^ N.of_nat (bits_needed node) - 2 ^ N.of_nat (bits_needed node - diff))%N.
Proof.
  intros node diff H D. unfold wt_node_diff. rewrite SizeFitsInBits_ok by auto. cbn [bind]. pose proof (bits_needed_le node 63 H ltac:(lia)) as B. set (d := bits_needed node) in *.
  rewrite WidthMask_ok by lia. cbn [bind]. replace (wsub (N.of_nat d) (N.of_nat diff)) with (N.of_nat (d - diff)).
  2:{ unfold wsub. replace (N.of_nat d + 2 ^ 64 - N.of_nat diff)%N with (N.of_nat (d - diff) + 1 * 2 ^ 64)%N by (change (2 ^ 64)%N with 18446744073709551616%N; lia). rewrite N.mod_add by (vm_compute; discriminate).
      symmetry. apply N.mod_small. change (2 ^ 64)%N with 18446744073709551616%N. lia. }
  rewrite WidthMask_ok by lia. cbn [bind]. f_equal. assert (L : (2 ^ N.of_nat (d - diff) <= 2 ^ N.of_nat d)%N) by (apply N.pow_le_mono_r; lia). assert (U : (2 ^ N.of_nat d < 2 ^ 64)%N) by (apply N.pow_lt_mono_r; lia).
  pose proof (N.pow_nonzero 2 (N.of_nat (d - diff)) ltac:(lia)). set (a := (2 ^ N.of_nat d)%N) in *. set (b := (2 ^ N.of_nat (d - diff))%N) in *. unfold wsub.
  replace (a - 1 + 2 ^ 64 - (b - 1))%N with (a - b + 1 * 2 ^ 64)%N by (change (2 ^ 64)%N with 18446744073709551616%N in *; lia). rewrite N.mod_add by (vm_compute; discriminate). apply N.mod_small. change (2 ^ 64)%N with 18446744073709551616%N in *; lia.
Qed.
