(** Proofs about WaveletModel.v *)
From Coq Require Import List NArith ZArith Lia Bool Arith.
From Verif Require Import Base Spec Spec2 BitUtilModel BitUtilProof CalcModel CalcProof
  BitVectorModel BitVectorProof BitVectorProof2 SuccinctModel SuccinctProof SuccinctProof3 FitVectorModel FitVectorProof WaveletModel DacProof.
Import ListNotations.
Local Open Scope nat_scope.

(** [k] levels remain below a node: its values agree on all but the low k bits *)
Definition pre (k : nat) (v : N) : N := N.shiftr v (N.of_nat k).
Definition same (k : nat) (p : N) (v : N) : bool := (pre k v =? p)%N.
Definition bitk (k : nat) (v : N) : bool := N.testbit v (N.of_nat k).
(** node number: level d = h - k, prefix p *)
Definition nid (d : nat) (p : N) : nat := 2 ^ d + N.to_nat p.

Lemma pre_S : forall k v, pre k v = (2 * pre (S k) v + N.b2n (bitk k v))%N.
Proof.
  intros. unfold pre, bitk. rewrite Nat2N.inj_succ, <- N.add_1_r, <- N.shiftr_shiftr, <- N.div2_spec.
  rewrite (N.div2_odd (N.shiftr v (N.of_nat k))) at 1. f_equal. f_equal.
  rewrite <- N.bit0_odd, N.shiftr_spec by lia. now rewrite N.add_0_l.
Qed.

Lemma nid_next : forall d p b, next_id (nid d p) b = nid (S d) (2 * p + N.b2n b).
Proof. intros. unfold next_id, nid. rewrite Nat.pow_succ_r'. destruct b; simpl N.b2n; simpl Nat.b2n; lia. Qed.

Lemma nid_inj : forall d p d' p', (p < 2 ^ N.of_nat d)%N -> (p' < 2 ^ N.of_nat d')%N -> nid d p = nid d' p' -> d = d' /\ p = p'.
Proof.
  assert (B : forall d p, (p < 2 ^ N.of_nat d)%N -> 2 ^ d <= nid d p < 2 ^ S d).
  { intros d p H. unfold nid. rewrite Nat.pow_succ_r'. assert (N.to_nat p < 2 ^ d); [|lia].
    apply Nat.compare_lt_iff. rewrite <- (Nat2N.id (2 ^ d)), <- N2Nat.inj_compare. rewrite Nat2N.inj_pow. exact H. }
  intros d p d' p' H H' E. pose proof (B d p H). pose proof (B d' p' H').
  assert (d = d').
  { destruct (Nat.lt_trichotomy d d') as [L|[L|L]]; auto; exfalso.
    - assert (2 ^ S d <= 2 ^ d') by (apply Nat.pow_le_mono_r; lia). lia.
    - assert (2 ^ S d' <= 2 ^ d) by (apply Nat.pow_le_mono_r; lia). lia. }
  subst d'. split; auto. unfold nid in E. apply N2Nat.inj. lia.
Qed.

Lemma pre_lt : forall h k v, k <= h -> (v < 2 ^ N.of_nat h)%N -> (pre k v < 2 ^ N.of_nat (h - k))%N.
Proof.
  intros. unfold pre. rewrite N.shiftr_div_pow2. apply N.div_lt_upper_bound; [apply N.pow_nonzero; lia|].
  rewrite <- N.pow_add_r. replace (N.of_nat k + N.of_nat (h - k))%N with (N.of_nat h) by lia. auto.
Qed.

Lemma nid_bound : forall h k v, k < h -> (v < 2 ^ N.of_nat h)%N -> nid (h - S k) (pre (S k) v) - 1 < 2 ^ h - 1.
Proof.
  intros. pose proof (pre_lt h (S k) v ltac:(lia) H0). unfold nid.
  assert (N.to_nat (pre (S k) v) < 2 ^ (h - S k)).
  { apply Nat.compare_lt_iff. rewrite <- (Nat2N.id (2 ^ (h - S k))), <- N2Nat.inj_compare. rewrite Nat2N.inj_pow. exact H1. }
  assert (2 ^ S (h - S k) <= 2 ^ h) by (apply Nat.pow_le_mono_r; lia). rewrite Nat.pow_succ_r' in H3.
  assert (0 < 2 ^ (h - S k)) by (apply Nat.neq_0_lt_0, Nat.pow_nonzero; lia). lia.
Qed.

(** bits of a node *)
Definition nbits (k : nat) (p : N) (l : list N) : list bool := map (bitk k) (filter (same (S k) p) l).

(** levels with more than [k0] levels below have received [x] as well *)
Definition wrep (h k0 : nat) (nodes : list bitvec) (l : list N) (x : N) : Prop :=
  length nodes = 2 ^ h - 1 /\
  forall k p, k < h -> (p < 2 ^ N.of_nat (h - S k))%N ->
    bv_rep (nth (nid (h - S k) p - 1) nodes bv_default) (nbits k p (if k0 <=? k then l ++ [x] else l)).

Lemma nbits_app : forall k p l x, nbits k p (l ++ [x]) = nbits k p l ++ (if same (S k) p x then [bitk k x] else []).
Proof. intros. unfold nbits. rewrite filter_app, map_app. simpl. destruct (same (S k) p x); auto. Qed.

Lemma nth_upd_other : forall A (l : list A) i j v d, i <> j -> nth j (upd l i v) d = nth j l d.
Proof.
  induction l; intros i j v d H; destruct i, j; simpl; auto; try lia.
Qed.

Lemma nth_upd_same : forall A (l : list A) i v d, i < length l -> nth i (upd l i v) d = v.
Proof. induction l; intros i v d H; destruct i; simpl in *; auto; try lia. apply IHl. lia. Qed.

Lemma insert_ok : forall h k0 nodes l x, k0 <= h -> (x < 2 ^ N.of_nat h)%N -> wrep h k0 nodes l x ->
  exists nodes', wt_insert k0 nodes (nid (h - k0) (pre k0 x)) x = Ok nodes' /\ wrep h 0 nodes' l x.
Proof.
  intros h. induction k0 as [|k IH]; intros nodes l x Hk Hx W.
  - exists nodes. simpl. auto.
  - destruct W as (L & W). cbn [wt_insert]. fold (bitk k x).
    pose proof (nid_bound h k x ltac:(lia) Hx) as B. pose proof (pre_lt h (S k) x ltac:(lia) Hx) as Pl.
    set (i := nid (h - S k) (pre (S k) x) - 1) in *.
    rewrite (lget_nth _ nodes i bv_default) by lia. cbn [bind].
    pose proof (W k (pre (S k) x) ltac:(lia) Pl) as R. fold i in R. destruct (Nat.leb_spec (S k) k); [lia|].
    destruct (bv_push_rep _ _ (bitk k x) R) as (n' & E & R'). rewrite E. cbn [bind].
    rewrite lset_Ok by lia. cbn [bind]. rewrite nid_next, <- pre_S.
    replace (S (h - S k)) with (h - k) by lia.
    apply IH; [lia|auto|]. split; [now rewrite upd_length|].
    intros k' p Hk' Hp.
    destruct (Nat.eq_dec k' k) as [->|Nk]; [destruct (N.eq_dec p (pre (S k) x)) as [->|Np]|].
    + fold i. rewrite nth_upd_same by lia. rewrite Nat.leb_refl, nbits_app. unfold same. rewrite N.eqb_refl. auto.
    + rewrite nth_upd_other.
      * specialize (W k p Hk' Hp). destruct (Nat.leb_spec (S k) k); [lia|]. rewrite Nat.leb_refl, nbits_app.
        unfold same. destruct (N.eqb_spec (pre (S k) x) p); [congruence|]. now rewrite app_nil_r.
      * intro E'. assert (nid (h - S k) (pre (S k) x) = nid (h - S k) p).
        { unfold i, nid in *. assert (0 < 2 ^ (h - S k)) by (apply Nat.neq_0_lt_0, Nat.pow_nonzero; lia). lia. }
        apply nid_inj in H0; auto. destruct H0. congruence.
    + rewrite nth_upd_other.
      * specialize (W k' p Hk' Hp). destruct (Nat.leb_spec (S k) k'), (Nat.leb_spec k k'); try lia; auto.
      * intro E'. assert (nid (h - S k) (pre (S k) x) = nid (h - S k') p).
        { unfold i, nid in *. assert (0 < 2 ^ (h - S k)) by (apply Nat.neq_0_lt_0, Nat.pow_nonzero; lia).
          assert (0 < 2 ^ (h - S k')) by (apply Nat.neq_0_lt_0, Nat.pow_nonzero; lia). lia. }
        apply nid_inj in H0; auto. lia.
Qed.

Definition wfull (h : nat) (nodes : list bitvec) (l : list N) : Prop :=
  length nodes = 2 ^ h - 1 /\
  forall k p, k < h -> (p < 2 ^ N.of_nat (h - S k))%N -> bv_rep (nth (nid (h - S k) p - 1) nodes bv_default) (nbits k p l).

Lemma pre_top : forall h x, (x < 2 ^ N.of_nat h)%N -> pre h x = 0%N.
Proof. intros. unfold pre. apply shiftr_zero. auto. Qed.

Lemma insert_all : forall h xs nodes l, Forall (fun x => (x < 2 ^ N.of_nat h)%N) xs -> wfull h nodes l ->
  exists nodes', foldM (fun nodes v => wt_insert h nodes 1 v) xs nodes = Ok nodes' /\ wfull h nodes' (l ++ xs).
Proof.
  intros h. induction xs; intros nodes l F W.
  - exists nodes. rewrite app_nil_r. auto.
  - inversion F as [|? ? Fa Fx]. destruct (insert_ok h h nodes l a (le_n h) Fa) as (n1 & E1 & W1).
    { destruct W as (L & W). split; auto. intros k p Hk Hp. destruct (Nat.leb_spec h k); [lia|]. auto. }
    rewrite Nat.sub_diag, pre_top in E1 by auto. change (nid 0 0) with 1 in E1.
    destruct (IHxs n1 (l ++ [a]) Fx) as (n2 & E2 & W2).
    { destruct W1 as (L & W1). split; auto. }
    exists n2. cbn [foldM]. rewrite E1. cbn [bind]. split; auto. now rewrite <- app_assoc in W2.
Qed.

Definition wok (h : nat) (nodes : list sbv) (l : list N) : Prop :=
  length nodes = 2 ^ h - 1 /\
  forall k p, k < h -> (p < 2 ^ N.of_nat (h - S k))%N -> sbv_ok (nth (nid (h - S k) p - 1) nodes sb_default) (nbits k p l).

Lemma mapM_build : forall src, (forall n, In n src -> exists l, bv_rep n l) ->
  exists nodes, mapM (sb_build false) src = Ok nodes /\ length nodes = length src /\
    forall i, i < length src -> forall l, bv_rep (nth i src bv_default) l -> sbv_ok (nth i nodes sb_default) l.
Proof.
  induction src as [|a s IH]; intros H.
  - exists []. simpl. split; auto. split; auto. intros; lia.
  - destruct IH as (ns & E & L & G); [intros; apply H; now right|]. destruct (H a (or_introl eq_refl)) as (la & Ra).
    destruct (sb_build_total a la false Ra) as (sa & Ea & Ba & _).
    exists (sa :: ns). cbn [mapM]. rewrite Ea. cbn [bind]. rewrite E. cbn [bind]. split; auto. split; [simpl; lia|].
    intros [|i] Hi l R; simpl in *; [|apply G; auto; lia].
    destruct (sb_build_total a l false R) as (sa' & Ea' & _ & O). congruence.
Qed.

Lemma nid_onto : forall h i, i < 2 ^ h - 1 -> exists k p, k < h /\ (p < 2 ^ N.of_nat (h - S k))%N /\ nid (h - S k) p - 1 = i.
Proof.
  intros h i Hi. pose proof (Nat.log2_spec (S i) ltac:(lia)) as (A & B). set (d := Nat.log2 (S i)) in *.
  assert (d < h). { destruct (Nat.lt_ge_cases d h); auto. assert (2 ^ h <= 2 ^ d) by (apply Nat.pow_le_mono_r; lia). lia. }
  rewrite Nat.pow_succ_r' in B.
  exists (h - S d), (N.of_nat (S i - 2 ^ d)). replace (h - S (h - S d)) with d by lia. split; [lia|]. split.
  - change 2%N with (N.of_nat 2). rewrite <- Nat2N.inj_pow. lia.
  - unfold nid. rewrite Nat2N.id. lia.
Qed.

Lemma wt_make_ok : forall l, l <> [] -> Forall (fun x => (x < 2 ^ 31)%N) l ->
  exists t, wt_make l = Ok t /\ wok (wt_height t) (wt_nodes t) l /\ Forall (fun x => (x < 2 ^ N.of_nat (wt_height t))%N) l /\
    1 <= wt_height t /\ wt_height t = bits_needed (max_element l).
Proof.
  intros l Hl F.
  assert (Hm : (max_element l < 2 ^ 31)%N) by (apply max_element_bound; auto; vm_compute; reflexivity).
  assert (Hm63 : (max_element l < 2 ^ 63)%N) by (apply N.lt_trans with (2 ^ 31)%N; [auto|vm_compute; reflexivity]).
  destruct (bits_needed_spec (max_element l)) as (B1 & B2 & _). pose proof (bits_needed_le _ 31 Hm ltac:(lia)) as B3.
  unfold wt_make. destruct l as [|a l'] eqn:El; [congruence|]. rewrite <- El in *.
  rewrite SizeFitsInBits_ok by auto. cbn [bind]. set (h := bits_needed (max_element l)) in *.
  destruct (Nat.leb_spec 32 h); [lia|].
  assert (Fh : Forall (fun x => (x < 2 ^ N.of_nat h)%N) l).
  { apply Forall_forall. intros x Hx. apply N.le_lt_trans with (max_element l); auto. now apply max_element_le. }
  destruct (insert_all h l (repeat bv_default (2 ^ h - 1)) [] Fh) as (src & E & W).
  { split; [apply repeat_length|]. intros. rewrite nth_repeat. apply bv_default_rep. }
  rewrite E. cbn [bind]. destruct W as (L & W). simpl app in W.
  destruct (mapM_build src) as (nodes & En & Ln & G).
  { intros n Hn. apply In_nth with (d := bv_default) in Hn. destruct Hn as (i & Hi & <-).
    destruct (nid_onto h i) as (k & p & Hk & Hp & Ei); [lia|]. rewrite <- Ei. eauto. }
  rewrite En. cbn [bind]. eexists. split; [reflexivity|]. cbn [wt_height wt_nodes]. split; [|auto].
  split; [lia|]. intros k p Hk Hp. apply G; [|now apply W].
  rewrite L. unfold nid. assert (N.to_nat p < 2 ^ (h - S k)).
  { apply Nat.compare_lt_iff. rewrite <- (Nat2N.id (2 ^ (h - S k))), <- N2Nat.inj_compare. rewrite Nat2N.inj_pow. exact Hp. }
  assert (2 ^ S (h - S k) <= 2 ^ h) by (apply Nat.pow_le_mono_r; lia). rewrite Nat.pow_succ_r' in H1.
  assert (0 < 2 ^ (h - S k)) by (apply Nat.neq_0_lt_0, Nat.pow_nonzero; lia). lia.
Qed.

(** ** queries *)
(** positions: the prefix of a node's sequence that comes from the first i elements *)
Definition cnt (k : nat) (p : N) (l : list N) : nat := length (filter (same k p) l).

Lemma firstn_filter : forall A (f : A -> bool) l i, firstn (length (filter f (firstn i l))) (filter f l) = filter f (firstn i l).
Proof.
  intros. rewrite <- (firstn_skipn i l) at 2. rewrite filter_app, firstn_app, firstn_all, Nat.sub_diag. simpl. apply app_nil_r.
Qed.

Lemma same_child : forall k p v b, same k (2 * p + N.b2n b) v = same (S k) p v && Bool.eqb (bitk k v) b.
Proof.
  intros. unfold same. rewrite pre_S. destruct (N.eqb_spec (pre (S k) v) p), (bitk k v), b; cbn [N.b2n eqb andb];
  repeat match goal with |- context [(?a =? ?b)%N] => destruct (N.eqb_spec a b) end; auto; exfalso; lia.
Qed.

Lemma cnt_child : forall k p b l, cnt k (2 * p + N.b2n b) l = 
  let c := count_true (map (bitk k) (filter (same (S k) p) l)) in if b then c else cnt (S k) p l - c.
Proof.
  intros. unfold cnt. induction l as [|v l IH]; [destruct b; reflexivity|].
  cbn [filter]. rewrite same_child. destruct (same (S k) p v); cbn [andb]; [|apply IH].
  cbn [map length]. cbv zeta in *.
  assert (C : count_true (map (bitk k) (filter (same (S k) p) l)) <= length (filter (same (S k) p) l)).
  { clear. induction (filter (same (S k) p) l); simpl; auto. unfold count_true in *. simpl. destruct (bitk k a); simpl; lia. }
  assert (Cc : forall b l, count_true (b :: l) = (if b then 1 else 0) + count_true l) by (intros [] l'; reflexivity).
  rewrite Cc. destruct (bitk k v), b; cbn [eqb length]; rewrite IH; lia.
Qed.

Lemma filter_le : forall (f : N -> bool) l, length (filter f l) <= length l.
Proof. induction l; simpl; [lia|]. destruct (f a); simpl; lia. Qed.

Lemma child_ok : forall n k p l i b, sbv_ok n (nbits k p l) -> (N.of_nat (length l) < 2 ^ 64)%N ->
  (cnt (S k) p (firstn i l) < cnt (S k) p l \/ cnt (S k) p l mod 64 <> 0 \/ cnt (S k) p l = 0) ->
  wt_child n b (cnt (S k) p (firstn i l)) = Ok (cnt k (2 * p + N.b2n b) (firstn i l)).
Proof.
  intros n k p l i b O HL H.
  assert (Ln : length (nbits k p l) = cnt (S k) p l) by (unfold nbits, cnt; now rewrite map_length).
  assert (Le : cnt (S k) p (firstn i l) <= cnt (S k) p l).
  { unfold cnt. rewrite <- (firstn_skipn i l) at 2. rewrite filter_app, app_length. lia. }
  assert (Ll : cnt (S k) p (firstn i l) <= length l).
  { pose proof (filter_le (same (S k) p) l). unfold cnt in *. lia. }
  assert (Rk : sb_rank n (cnt (S k) p (firstn i l)) = Ok (N.of_nat (count_true (map (bitk k) (filter (same (S k) p) (firstn i l)))))).
  { rewrite (rank_ok n (nbits k p l)); auto; try lia.
    - unfold nbits at 1. rewrite firstn_map. unfold cnt. now rewrite firstn_filter.
    - rewrite Ln. destruct H as [H|[H|H]]; auto. right. right. apply length_zero_iff_nil. lia. }
  rewrite cnt_child. cbv zeta. unfold wt_child, sb_rank0. rewrite Rk. destruct b; cbn [negb bind]; f_equal; [apply Nat2N.id|].
  assert (C : count_true (map (bitk k) (filter (same (S k) p) (firstn i l))) <= cnt (S k) p (firstn i l)).
  { unfold cnt. clear. induction (filter (same (S k) p) (firstn i l)); simpl; auto. unfold count_true in *. simpl. destruct (bitk k a); simpl; lia. }
  unfold wsub.
  replace (N.of_nat (cnt (S k) p (firstn i l)) + 2 ^ 64 - N.of_nat (count_true (map (bitk k) (filter (same (S k) p) (firstn i l)))))%N
   with (N.of_nat (cnt (S k) p (firstn i l) - count_true (map (bitk k) (filter (same (S k) p) (firstn i l)))) + 1 * 2 ^ 64)%N
   by (change (2 ^ 64)%N with 18446744073709551616%N; lia).
  rewrite N.mod_add by (vm_compute; discriminate). rewrite N.mod_small; [lia|].
  change (2 ^ 64)%N with 18446744073709551616%N in *. lia.
Qed.

Definition safe (k : nat) (c : N) (l : list N) (i : nat) : Prop :=
  cnt k (pre k c) (firstn i l) < cnt k (pre k c) l \/ cnt k (pre k c) l mod 64 <> 0 \/ cnt k (pre k c) l = 0.

Lemma node_get : forall h nodes l k c, wok h nodes l -> k < h -> (c < 2 ^ N.of_nat h)%N ->
  exists n, lget nodes (nid (h - S k) (pre (S k) c) - 1) = Ok n /\ sbv_ok n (nbits k (pre (S k) c) l).
Proof.
  intros h nodes l k c (L & W) Hk Hc. pose proof (nid_bound h k c Hk Hc) as B.
  exists (nth (nid (h - S k) (pre (S k) c) - 1) nodes sb_default). split; [apply lget_nth; lia|].
  apply W; auto. apply pre_lt; auto.
Qed.

Lemma next_of : forall h k c, k < h -> next_id (nid (h - S k) (pre (S k) c)) (bitk k c) = nid (h - k) (pre k c).
Proof. intros. rewrite nid_next, <- pre_S. f_equal. lia. Qed.

Lemma rank_c_ok : forall h nodes l c i, wok h nodes l -> (c < 2 ^ N.of_nat h)%N -> (N.of_nat (length l) < 2 ^ 64)%N ->
  forall k, k <= h -> (forall k', k' < k -> safe (S k') c l i) ->
  wt_rank_c_loop k nodes c (nid (h - k) (pre k c)) (cnt k (pre k c) (firstn i l)) = Ok (cnt 0 (pre 0 c) (firstn i l)).
Proof.
  intros h nodes l c i W Hc HL. induction k as [|k IH]; intros Hk S; [reflexivity|].
  cbn [wt_rank_c_loop]. destruct (node_get h nodes l k c W ltac:(lia) Hc) as (n & E & O). rewrite E. cbn [bind].
  fold (bitk k c). rewrite (child_ok n k (pre (Datatypes.S k) c) l i (bitk k c) O HL (S k ltac:(lia))). cbn [bind].
  rewrite next_of by lia. rewrite <- pre_S. apply IH; [lia|]. intros. apply S. lia.
Qed.

Lemma rank_c_mod : forall h nodes c, forall k id idx, k <= h ->
  wt_rank_c_loop k nodes c id idx = wt_rank_c_loop k nodes (c mod 2 ^ N.of_nat h) id idx.
Proof.
  intros h nodes c. induction k; intros id idx Hk; auto. cbn [wt_rank_c_loop].
  rewrite N.mod_pow2_bits_low by lia. destruct (lget nodes (id - 1)); cbn [bind]; auto.
  destruct (wt_child _ _ _); cbn [bind]; auto. apply IHk. lia.
Qed.

Lemma split_at : forall l i, i < length l -> l = firstn i l ++ nth i l 0%N :: skipn (S i) l.
Proof.
  induction l; intros i H; simpl in H; [lia|]. destruct i; simpl; auto. f_equal. apply IHl. lia.
Qed.

Lemma own_nth : forall k l i, i < length l -> let c := nth i l 0%N in
  cnt k (pre k c) (firstn i l) < cnt k (pre k c) l /\ nth (cnt k (pre k c) (firstn i l)) (filter (same k (pre k c)) l) 0%N = c.
Proof.
  intros k l i Hi c.
  assert (E : filter (same k (pre k c)) l = filter (same k (pre k c)) (firstn i l) ++ c :: filter (same k (pre k c)) (skipn (S i) l)).
  { rewrite (split_at l i Hi) at 1. rewrite filter_app. cbn [filter]. fold c. unfold same at 2. rewrite N.eqb_refl. reflexivity. }
  unfold cnt. rewrite E, app_length. split; [simpl; lia|]. rewrite app_nth2 by lia. now rewrite Nat.sub_diag.
Qed.

Lemma own_get : forall n k l i, i < length l -> let c := nth i l 0%N in sbv_ok n (nbits k (pre (S k) c) l) ->
  sb_get n (cnt (S k) (pre (S k) c) (firstn i l)) = Ok (bitk k c).
Proof.
  intros n k l i Hi c O. destruct (own_nth (S k) l i Hi) as (A & B). fold c in A, B.
  rewrite (sb_get_ok n _ _ O) by (unfold nbits; rewrite map_length; exact A).
  unfold nbits. rewrite (nth_map_d _ _ (bitk k) _ _ 0%N) by exact A. now rewrite B.
Qed.

Lemma own_safe : forall k l i, i < length l -> safe k (nth i l 0%N) l i.
Proof. intros. left. now apply own_nth. Qed.

Definition hv (k : nat) (v : N) : N := N.shiftl (pre k v) (N.of_nat k).

Lemma hv_step : forall k v, N.lor (hv (S k) v) (N.shiftl (N.b2n (bitk k v)) (N.of_nat k)) = hv k v.
Proof.
  intros. unfold hv. replace (N.of_nat (S k)) with (1 + N.of_nat k)%N by lia. rewrite <- N.shiftl_shiftl, <- N.shiftl_lor. f_equal.
  rewrite (pre_S k v). rewrite N.shiftl_mul_pow2. change (2 ^ 1)%N with 2%N. rewrite (N.mul_comm (pre (S k) v)).
  destruct (bitk k v); cbn [N.b2n]; [|now rewrite N.lor_0_r, N.add_0_r].
  destruct (pre (S k) v); reflexivity.
Qed.

Lemma lor_mod : forall a b, (N.lor (a mod 256) b mod 256 = N.lor a b mod 256)%N.
Proof.
  intros. change 256%N with (2 ^ 8)%N. rewrite <- !N.land_ones. apply N.bits_inj. intro i.
  rewrite !N.land_spec, !N.lor_spec, N.land_spec. destruct (N.testbit a i), (N.testbit b i), (N.testbit (N.ones 8) i); reflexivity.
Qed.

Lemma get_ok : forall h nodes l i, wok h nodes l -> (N.of_nat (length l) < 2 ^ 64)%N -> i < length l ->
  let c := nth i l 0%N in (c < 2 ^ N.of_nat h)%N ->
  forall k, S k <= h -> 
  wt_get_loop (S k) nodes (nid (h - S k) (pre (S k) c)) (cnt (S k) (pre (S k) c) (firstn i l)) (hv (S k) c mod 256) = Ok (c mod 256)%N.
Proof.
  intros h nodes l i W HL Hi c Hc. induction k as [|k IH]; intros Hk.
  - cbn [wt_get_loop]. destruct (node_get h nodes l 0 c W ltac:(lia) Hc) as (n & E & O). rewrite E. cbn [bind].
    assert (G : sb_get n (cnt 1 (pre 1 c) (firstn i l)) = Ok (bitk 0 c)) by (apply (own_get n 0 l i Hi O)).
    rewrite G. cbn [bind]. f_equal.
    rewrite lor_mod. pose proof (hv_step 0 c) as Hs. change (N.of_nat 0) with 0%N in Hs. rewrite N.shiftl_0_r in Hs. rewrite Hs.
    unfold hv, pre. change (N.of_nat 0) with 0%N. now rewrite N.shiftl_0_r, N.shiftr_0_r.
  - cbn [wt_get_loop]. destruct (node_get h nodes l (S k) c W ltac:(lia) Hc) as (n & E & O). rewrite E. cbn [bind].
    assert (G : sb_get n (cnt (S (S k)) (pre (S (S k)) c) (firstn i l)) = Ok (bitk (S k) c)) by (apply (own_get n (S k) l i Hi O)).
    rewrite G. cbn [bind].
    rewrite lor_mod, hv_step.
    rewrite (child_ok n (S k) (pre (S (S k)) c) l i (bitk (S k) c) O HL (own_safe _ l i Hi)). cbn [bind].
    rewrite next_of by lia. rewrite <- pre_S. apply IH. lia.
Qed.

Lemma access_ok : forall h nodes l i, wok h nodes l -> (N.of_nat (length l) < 2 ^ 64)%N -> i < length l ->
  let c := nth i l 0%N in (c < 2 ^ N.of_nat h)%N ->
  forall k, k <= h -> 
  wt_access_rank_loop k nodes (nid (h - k) (pre k c)) (cnt k (pre k c) (firstn i l)) (hv k c) =
    Ok (c mod 256, cnt 0 (pre 0 c) (firstn i l))%N /\
  wt_rank_loop k nodes (nid (h - k) (pre k c)) (cnt k (pre k c) (firstn i l)) = Ok (cnt 0 (pre 0 c) (firstn i l)).
Proof.
  intros h nodes l i W HL Hi c Hc. induction k as [|k IH]; intros Hk.
  - split; [|reflexivity]. cbn [wt_access_rank_loop]. unfold hv. change (N.of_nat 0) with 0%N. rewrite N.shiftl_0_r. unfold pre at 1.
    change (N.of_nat 0) with 0%N. now rewrite N.shiftr_0_r.
  - cbn [wt_access_rank_loop wt_rank_loop]. destruct (node_get h nodes l k c W ltac:(lia) Hc) as (n & E & O). rewrite E. cbn [bind].
    assert (G : sb_get n (cnt (S k) (pre (S k) c) (firstn i l)) = Ok (bitk k c)) by (apply (own_get n k l i Hi O)).
    rewrite G. cbn [bind].
    rewrite (child_ok n k (pre (S k) c) l i (bitk k c) O HL (own_safe _ l i Hi)). cbn [bind].
    rewrite hv_step. rewrite next_of by lia. rewrite <- pre_S. apply IH. lia.
Qed.

(** ** statements *)
Lemma cnt_top : forall h l, Forall (fun x => (x < 2 ^ N.of_nat h)%N) l -> cnt h 0 l = length l.
Proof.
  intros h l F. unfold cnt. induction F as [|x l Hx F IH]; auto. cbn [filter]. unfold same at 1. rewrite pre_top by auto.
  rewrite N.eqb_refl. simpl. auto.
Qed.

Lemma cnt_0 : forall c l, cnt 0 c l = count_if (fun x => (x =? c)%N) l.
Proof.
  intros. unfold cnt, count_if. apply f_equal, filter_ext. intros x. unfold same, pre. change (N.of_nat 0) with 0%N. now rewrite N.shiftr_0_r.
Qed.

Lemma small31_mod : forall c, (pre 0 c = c)%N.
Proof. intros. unfold pre. change (N.of_nat 0) with 0%N. apply N.shiftr_0_r. Qed.

Lemma length64 : forall A (l : list A), (N.of_nat (length l) < 2 ^ 63)%N -> (N.of_nat (length l) < 2 ^ 64)%N.
Proof. intros. apply N.lt_trans with (2 ^ 63)%N; [auto|reflexivity]. Qed.

Lemma start_idx : forall h l i, Forall (fun x => (x < 2 ^ N.of_nat h)%N) l -> i <= length l -> cnt h 0 (firstn i l) = i.
Proof.
  intros. rewrite cnt_top by (apply Forall_firstn'; auto). apply firstn_length_le. auto.
Qed.

Lemma wt_reads : forall l, l <> [] -> Forall (fun x => (x < 2 ^ 31)%N) l -> (N.of_nat (length l) < 2 ^ 63)%N ->
  exists t, wt_make l = Ok t /\
    (forall i, i < length l -> wt_get t i = Ok (nth i l 0 mod 256)%N) /\
    (forall i, i < length l -> wt_rank t i = Ok (count_if (fun x => (x =? nth i l 0)%N) (firstn i l))) /\
    (forall i, i < length l -> wt_access_and_rank t i = Ok ((nth i l 0 mod 256)%N, count_if (fun x => (x =? nth i l 0)%N) (firstn i l))).
Proof.
  intros l Hl F HL. apply length64 in HL. destruct (wt_make_ok l Hl F) as (t & E & W & Fh & H1 & _). exists t. split; auto.
  set (h := wt_height t) in *.
  assert (G : forall i, i < length l -> (nth i l 0 < 2 ^ N.of_nat h)%N) by (intros; rewrite Forall_forall in Fh; apply Fh, nth_In; auto).
  split; [|split]; intros i Hi; pose proof (G i Hi) as Gi.
  - unfold wt_get. fold h. destruct h as [|k]; [lia|]. pose proof (get_ok (S k) _ l i W HL Hi Gi k (le_n _)) as Q.
    rewrite Nat.sub_diag in Q. rewrite pre_top in Q by auto. rewrite start_idx in Q by (auto; lia).
    unfold hv in Q. rewrite pre_top, N.shiftl_0_l in Q by auto. exact Q.
  - unfold wt_rank. fold h. destruct (access_ok h _ l i W HL Hi Gi h (le_n _)) as (_ & Q).
    rewrite Nat.sub_diag, pre_top in Q by auto. rewrite start_idx in Q by (auto; lia). rewrite small31_mod, cnt_0 in Q. exact Q.
  - unfold wt_access_and_rank. fold h. destruct (access_ok h _ l i W HL Hi Gi h (le_n _)) as (Q & _).
    rewrite Nat.sub_diag in Q. unfold hv in Q. rewrite !pre_top, N.shiftl_0_l in Q by auto. rewrite start_idx in Q by (auto; lia).
    rewrite small31_mod, cnt_0 in Q. exact Q.
Qed.

Lemma cnt_sharing : forall k c l, cnt k (pre k c) l = sharing k c l.
Proof.
  intros. unfold cnt, sharing, count_if. apply f_equal, filter_ext. intro x. unfold same, pre. now rewrite !N.shiftr_div_pow2.
Qed.

Lemma wt_rank_c_reads : forall l c i, l <> [] -> Forall (fun x => (x < 2 ^ 31)%N) l -> (N.of_nat (length l) < 2 ^ 63)%N ->
  i <= length l -> (c < 256)%N -> (c < 2 ^ N.of_nat (bits_needed (max_element l)))%N ->
  (forall k, 1 <= k <= bits_needed (max_element l) ->
     sharing k c (firstn i l) < sharing k c l \/ sharing k c l mod 64 <> 0 \/ sharing k c l = 0) ->
  exists t, wt_make l = Ok t /\ wt_rank_c t c i = Ok (count_if (fun x => (x =? c)%N) (firstn i l)).
Proof.
  intros l c i Hl F HL Hi Hc Hch Hs. apply length64 in HL. destruct (wt_make_ok l Hl F) as (t & E & W & Fh & H1 & Eh). exists t. split; auto.
  rewrite <- Eh in *. set (h := wt_height t) in *. unfold wt_rank_c. fold h. rewrite N.mod_small by auto.
  pose proof (rank_c_ok h _ l c i W Hch HL h (le_n _)) as Q.
  rewrite Nat.sub_diag, pre_top in Q by auto. rewrite start_idx in Q by auto. rewrite small31_mod, cnt_0 in Q. apply Q.
  intros k' Hk'. unfold safe. rewrite !cnt_sharing. apply Hs. lia.
Qed.

Lemma sharing_le : forall k c l, sharing k c l <= length l.
Proof. intros. unfold sharing, count_if. apply filter_le. Qed.

Lemma wt_rank_c_short : forall l c i, l <> [] -> length l < 64 -> Forall (fun x => (x < 2 ^ 31)%N) l -> i <= length l ->
  (c < 256)%N -> (c < 2 ^ N.of_nat (bits_needed (max_element l)))%N ->
  exists t, wt_make l = Ok t /\ wt_rank_c t c i = Ok (count_if (fun x => (x =? c)%N) (firstn i l)).
Proof.
  intros l c i Hl Hs F Hi Hc Hch. apply wt_rank_c_reads; auto.
  - change (2 ^ 63)%N with 9223372036854775808%N. lia.
  - intros k _. pose proof (sharing_le k c l). right. destruct (Nat.eq_dec (sharing k c l) 0); [now right|left].
    rewrite Nat.mod_small by lia. auto.
Qed.

Lemma wt_rank_c_member : forall l c i, i < length l -> nth i l 0%N = c -> Forall (fun x => (x < 2 ^ 31)%N) l -> (N.of_nat (length l) < 2 ^ 63)%N ->
  (c < 256)%N -> exists t, wt_make l = Ok t /\ wt_rank_c t c i = Ok (count_if (fun x => (x =? c)%N) (firstn i l)).
Proof.
  intros l c i Hi Ec F HL Hc. assert (l <> []) by (intro; subst; simpl in Hi; lia).
  apply wt_rank_c_reads; auto; try lia.
  - apply N.le_lt_trans with (max_element l); [|apply bits_needed_spec]. apply max_element_le. rewrite <- Ec. now apply nth_In.
  - intros k _. left. rewrite <- !cnt_sharing. rewrite <- Ec. now apply own_nth.
Qed.

Lemma wt_rank_c_high : forall t c i, wt_rank_c t c i = wt_rank_c t (c mod 256 mod 2 ^ N.of_nat (wt_height t)) i.
Proof.
  intros. unfold wt_rank_c.
  assert (E : (c mod 256 mod 2 ^ N.of_nat (wt_height t) mod 256 = c mod 256 mod 2 ^ N.of_nat (wt_height t))%N).
  { apply N.mod_small. apply N.le_lt_trans with (c mod 256)%N; [apply N.mod_le, N.pow_nonzero; lia|apply N.mod_lt; lia]. }
  rewrite E. now apply rank_c_mod.
Qed.
