(** Proofs about HeapCostModel: any comparison leaves a permutation, and how often the comparison is called. *)
From Coq Require Import List NArith Arith Bool Lia Permutation.
From Verif Require Import Base HeapModel HeapProof HeapCostModel.
Import ListNotations.
Local Open Scope nat_scope.

Lemma log2_half : forall x, 2 <= x -> Nat.log2 x = S (Nat.log2 (x / 2)).
Proof.
  intros x H. apply Nat.log2_unique; [lia|]. assert (1 <= x / 2) by (apply Nat.div_le_lower_bound; lia). pose proof (Nat.log2_spec (x / 2)) as [L1 L2]; [lia|].
  pose proof (Nat.div_mod x 2) as D. pose proof (Nat.mod_upper_bound x 2) as M. cbn [Nat.pow] in *. lia.
Qed.
Lemma half_child : forall sz id m, 1 <= id -> 2 * id <= m -> sz / m <= (sz / id) / 2.
Proof. intros sz id m H L. rewrite Nat.div_div by lia. apply Nat.div_le_compat_l. lia. Qed.
Lemma swap_any : forall A (l : list A) i j, i < length l -> j < length l -> exists l', swap_at l i j = Ok l' /\ length l' = length l /\ Permutation l l'.
Proof. intros A l i j Hi Hj. destruct l as [|d l]; [inversion Hi|]. destruct (swap_spec A (d :: l) i j d Hi Hj) as (l' & E & L & P & _). eauto. Qed.

Section Any.
Context {S A : Type}.
Variables (pick sink : stest S A) (cost : S -> nat).
Hypothesis pick_cost : forall s a b, cost (snd (pick s a b)) <= Datatypes.S (cost s).
Hypothesis sink_cost : forall s a b, cost (snd (sink s a b)) <= Datatypes.S (cost s).
Lemma heapify_any : forall fuel sz s l id, sz <= length l -> 1 <= id -> sz < id + fuel -> 0 < fuel ->
  exists s' l', heapify_st pick sink fuel sz s l id = Ok (s', l') /\ Permutation l l' /\ cost s' <= cost s + 2 * Nat.log2 (sz / id).
Proof using pick_cost sink_cost.
  induction fuel as [|fuel IH]; intros sz s l id H1 H2 H3 H4; [lia|]. cbn [heapify_st].
  destruct (Nat.ltb_spec (sz / 2) id) as [B|B]. { exists s, l. split; [reflexivity|]. split; [apply Permutation_refl|]. lia. }
  assert (B2 : 2 * id <= sz) by (pose proof (Nat.mul_div_le sz 2); lia).
  assert (X : 2 <= sz / id) by (apply Nat.div_le_lower_bound; lia).
  assert (M : exists s1 m, (if 2 * id + 1 <=? sz
                 then do a <- lget l (2 * id - 1); do b <- lget l (2 * id + 1 - 1); let '(p, s) := pick s a b in Ok (s, if p then 2 * id + 1 else 2 * id)
                 else Ok (s, 2 * id)) = Ok (s1, m) /\ 2 * id <= m /\ m <= sz /\ cost s1 <= Datatypes.S (cost s)).
  { destruct (Nat.leb_spec (2 * id + 1) sz) as [R|R]; [|exists s, (2 * id); repeat split; lia].
    destruct (nth_error l (2 * id - 1)) as [a|] eqn:Ea; [|apply nth_error_None in Ea; lia]. destruct (nth_error l (2 * id + 1 - 1)) as [b|] eqn:Eb; [|apply nth_error_None in Eb; lia].
    unfold lget. rewrite Ea, Eb. cbn [bind]. pose proof (pick_cost s a b) as C. destruct (pick s a b) as [p s1]. cbn [snd] in C. exists s1. destruct p; eexists; (split; [reflexivity|]); lia. }
  destruct M as (s1 & m & -> & M1 & M2 & C1). cbn [bind].
  destruct (nth_error l (id - 1)) as [x|] eqn:Ex; [|apply nth_error_None in Ex; lia]. destruct (nth_error l (m - 1)) as [y|] eqn:Ey; [|apply nth_error_None in Ey; lia].
  unfold lget. rewrite Ex, Ey. cbn [bind]. pose proof (sink_cost s1 x y) as C2. destruct (sink s1 x y) as [p s2]. cbn [snd] in C2.
  rewrite (log2_half _ X). destruct p.
  - destruct (swap_any A l (id - 1) (m - 1)) as (l1 & -> & L1 & P1); [lia|lia|]. cbn [bind].
    destruct (IH sz s2 l1 m) as (s' & l' & -> & P & C); [lia|lia|lia|lia|]. exists s', l'. split; [reflexivity|]. split; [eapply Permutation_trans; eauto|].
    pose proof (Nat.log2_le_mono _ _ (half_child sz id m H2 M1)). lia.
  - exists s2, l. split; [reflexivity|]. split; [apply Permutation_refl|]. lia.
Qed.
(** the sifts of Build cost fewer steps than there are elements *)
Definition levels (n k : nat) : nat := list_sum (map (fun id => Nat.log2 (n / id)) (seq 1 k)).
Lemma list_sum_ext : forall (f g : nat -> nat) l, (forall x, In x l -> f x = g x) -> list_sum (map f l) = list_sum (map g l).
Proof. intros f g l H. f_equal. apply map_ext_in. exact H. Qed.
Lemma list_sum_one : forall x, list_sum [x] = x.
Proof. intros x. unfold list_sum. cbn [fold_right]. lia. Qed.
Lemma levels_S : forall n k, levels n (k + 1) = levels n k + Nat.log2 (n / (k + 1)).
Proof. intros n k. unfold levels. rewrite seq_app, map_app, list_sum_app. cbn [seq map]. rewrite list_sum_one. replace (1 + k) with (k + 1) by lia. reflexivity. Qed.
Lemma levels_more : forall n j, levels n (n / 2 + j) = levels n (n / 2).
Proof.
  intros n. induction j as [|j IH]; [rewrite Nat.add_0_r; reflexivity|]. replace (n / 2 + Datatypes.S j) with ((n / 2 + j) + 1) by lia. rewrite levels_S, IH.
  assert (n / (n / 2 + j + 1) < 2). { apply Nat.div_lt_upper_bound; [lia|]. pose proof (Nat.div_mod n 2). pose proof (Nat.mod_upper_bound n 2). lia. }
  assert (Nat.log2 (n / (n / 2 + j + 1)) = 0) by (apply Nat.log2_null; lia). lia.
Qed.
Lemma levels_half : forall n k, k <= n / 2 -> levels n k = k + levels (n / 2) k.
Proof.
  intros n. induction k as [|k IH]; intros H; [reflexivity|]. replace (Datatypes.S k) with (k + 1) by lia. rewrite !levels_S, IH by lia.
  rewrite (log2_half (n / (k + 1))). 2: { apply Nat.div_le_lower_bound; [lia|]. pose proof (Nat.mul_div_le n 2). lia. }
  rewrite Nat.div_div by lia. rewrite (Nat.mul_comm (k + 1) 2), <- Nat.div_div by lia. lia.
Qed.
Lemma levels_bound : forall n, 1 <= n -> levels n (n / 2) <= n - 1.
Proof.
  intros n. induction n as [n IH] using (well_founded_induction Wf_nat.lt_wf). intros H. destruct (le_lt_dec n 1) as [L|L]. { assert (n = 1) by lia. subst n. vm_compute. lia. }
  rewrite levels_half by lia. assert (Hh : 1 <= n / 2) by (apply Nat.div_le_lower_bound; lia). assert (Hl : n / 2 < n) by (apply Nat.div_lt; lia).
  assert (E : levels (n / 2) (n / 2) = levels (n / 2) (n / 2 / 2)).
  { assert (n / 2 / 2 <= n / 2) by (apply Nat.div_le_upper_bound; lia). replace (n / 2) with (n / 2 / 2 + (n / 2 - n / 2 / 2)) at 2 by lia. apply levels_more. }
  rewrite E. specialize (IH _ Hl Hh). pose proof (Nat.mul_div_le n 2). lia.
Qed.
Lemma build_any_aux : forall sz ids s l, sz <= length l -> (forall id, In id ids -> 1 <= id) ->
  exists s' l', foldM (fun r id => heapify_st pick sink (Datatypes.S sz) sz (fst r) (snd r) id) ids (s, l) = Ok (s', l') /\ Permutation l l' /\
    cost s' <= cost s + 2 * list_sum (map (fun id => Nat.log2 (sz / id)) ids).
Proof using pick_cost sink_cost.
  intros sz. induction ids as [|id ids IH]; intros s l L H; cbn [foldM map list_sum fold_right]. { exists s, l. split; [reflexivity|]. split; [apply Permutation_refl|]. unfold list_sum. cbn [fold_right]. lia. }
  cbn [fst snd]. assert (1 <= id) by (apply H; left; reflexivity). destruct (heapify_any (Datatypes.S sz) sz s l id) as (s1 & l1 & -> & P1 & C1); [lia|lia|lia|lia|]. cbn [bind].
  destruct (IH s1 l1) as (s' & l' & -> & P & C). { apply Permutation_length in P1. lia. } { intros x Hx. apply H. right. exact Hx. }
  exists s', l'. split; [reflexivity|]. split; [eapply Permutation_trans; eauto|]. unfold list_sum in *. cbn [fold_right]. lia.
Qed.
Lemma list_sum_rev : forall l, list_sum (rev l) = list_sum l.
Proof. induction l as [|a l IH]; [reflexivity|]. cbn [rev]. rewrite list_sum_app, IH. unfold list_sum. cbn [fold_right]. lia. Qed.
Lemma build_any : forall s l, exists s' l', heap_build_st pick sink (length l) s l = Ok (s', l') /\ Permutation l l' /\ cost s' <= cost s + 2 * (length l - 1).
Proof using pick_cost sink_cost.
  intros s l. unfold heap_build_st. destruct (build_any_aux (length l) (rev (seq 1 (length l / 2))) s l) as (s' & l' & E & P & C); [lia| |].
  { intros id H. apply in_rev in H. apply in_seq in H. lia. } exists s', l'. split; [exact E|]. split; [exact P|].
  rewrite map_rev, list_sum_rev in C. fold (levels (length l) (length l / 2)) in C. destruct (length l) as [|n] eqn:N; [cbn in *; lia|]. pose proof (levels_bound (Datatypes.S n)). lia.
Qed.
End Any.
Section Sort.
Context {S A : Type}.
Variables (cmp : stest S A) (cost : S -> nat).
Hypothesis cmp_cost : forall s a b, cost (snd (cmp s a b)) <= Datatypes.S (cost s).
Lemma sort_any : forall k s l n, k <= length l -> k <= n -> exists s' l', sort_loop_st cmp k s l = Ok (s', l') /\ Permutation l l' /\ cost s' <= cost s + 2 * (k - 1) * Nat.log2 n.
Proof using cmp_cost.
  induction k as [|k IH]; intros s l n L N. { exists s, l. split; [reflexivity|]. split; [apply Permutation_refl|]. lia. }
  cbn [sort_loop_st]. destruct k as [|k]. { exists s, l. split; [reflexivity|]. split; [apply Permutation_refl|]. lia. }
  destruct (swap_any A l 0 (Datatypes.S k)) as (l1 & -> & L1 & P1); [lia|lia|]. cbn [bind].
  destruct (heapify_any cmp cmp cost cmp_cost cmp_cost (Datatypes.S (Datatypes.S k)) (Datatypes.S k) s l1 1) as (s2 & l2 & -> & P2 & C2); [lia|lia|lia|lia|]. cbn [bind fst snd].
  destruct (IH s2 l2 n) as (s' & l' & -> & P & C); [apply Permutation_length in P2; lia|lia|]. exists s', l'. split; [reflexivity|]. split; [eapply Permutation_trans; [eauto|]; eapply Permutation_trans; eauto|].
  rewrite Nat.div_1_r in C2. assert (Nat.log2 (Datatypes.S k) <= Nat.log2 n) by (apply Nat.log2_le_mono; lia). replace (Datatypes.S (Datatypes.S k) - 1) with (Datatypes.S k) by lia. replace (Datatypes.S k - 1) with k in C by lia. nia.
Qed.
Lemma heap_sort_any : forall s l, exists s' l', heap_sort_st cmp s l = Ok (s', l') /\ Permutation l l' /\ cost s' <= cost s + 2 * (length l - 1) * (1 + Nat.log2 (length l)).
Proof using cmp_cost.
  intros s l. unfold heap_sort_st. destruct (build_any cmp cmp cost cmp_cost cmp_cost s l) as (s1 & l1 & -> & P1 & C1). cbn [bind fst snd].
  destruct (sort_any (length l) s1 l1 (length l)) as (s' & l' & -> & P & C); [apply Permutation_length in P1; lia|lia|]. exists s', l'. split; [reflexivity|]. split; [eapply Permutation_trans; eauto|]. nia.
Qed.
End Sort.

(** the same with a plain comparison *)
Section Plain.
Context {S A : Type}.
Variables (pick sink : stest S A) (p k : A -> A -> bool).
Hypothesis Hp : forall s a b, fst (pick s a b) = p a b.
Hypothesis Hk : forall s a b, fst (sink s a b) = k a b.
Lemma heapify_plain : forall fuel sz s l id, rmap snd (heapify_st pick sink fuel sz s l id) = heapify p k fuel sz l id.
Proof using Hp Hk.
  induction fuel as [|fuel IH]; intros sz s l id; cbn [heapify_st heapify]; [reflexivity|]. destruct (sz / 2 <? id); [reflexivity|].
  assert (F : forall s1 m, rmap snd (do x <- lget l (id - 1); do y <- lget l (m - 1); let '(q, s) := sink s1 x y in if q then do l <- swap_at l (id - 1) (m - 1); heapify_st pick sink fuel sz s l m else Ok (s, l))
    = do x <- lget l (id - 1); do y <- lget l (m - 1); if k x y then do l <- swap_at l (id - 1) (m - 1); heapify p k fuel sz l m else Ok l).
  { intros s1 m. destruct (lget l (id - 1)) as [x| | |]; try reflexivity. cbn [bind]. destruct (lget l (m - 1)) as [y| | |]; try reflexivity. cbn [bind]. pose proof (Hk s1 x y) as E. destruct (sink s1 x y) as [q s2]. cbn [fst] in E. rewrite <- E.
    destruct q; [|reflexivity]. destruct (swap_at l (id - 1) (m - 1)) as [l1| | |]; try reflexivity. cbn [bind]. apply IH. }
  destruct (2 * id + 1 <=? sz).
  - destruct (lget l (2 * id - 1)) as [a| | |]; try reflexivity. cbn [bind]. destruct (lget l (2 * id + 1 - 1)) as [b| | |]; try reflexivity. cbn [bind]. pose proof (Hp s a b) as E. destruct (pick s a b) as [q s1]. cbn [fst] in E. rewrite <- E.
    cbn [bind]. apply F.
  - cbn [bind]. apply F.
Qed.
Lemma build_plain : forall sz s l, rmap snd (heap_build_st pick sink sz s l) = heap_build p k sz l.
Proof using Hp Hk.
  intros sz s l. unfold heap_build_st, heap_build. revert s l. induction (rev (seq 1 (sz / 2))) as [|id ids IH]; intros s l; cbn [foldM]; [reflexivity|]. cbn [fst snd].
  rewrite <- (heapify_plain (Datatypes.S sz) sz s l id). destruct (heapify_st pick sink (Datatypes.S sz) sz s l id) as [[s1 l1]| | |]; try reflexivity. cbn [bind rmap snd]. apply IH.
Qed.
End Plain.
Lemma sort_loop_plain : forall S A (cmp : stest S A) c, (forall s a b, fst (cmp s a b) = c a b) -> forall k s l, rmap snd (sort_loop_st cmp k s l) = sort_loop c k l.
Proof.
  intros S A cmp c H. induction k as [|k IH]; intros s l; [reflexivity|]. cbn [sort_loop_st sort_loop]. destruct k as [|k]; [reflexivity|]. destruct (swap_at l 0 (Datatypes.S k)) as [l1| | |]; try reflexivity. cbn [bind].
  rewrite <- (heapify_plain cmp cmp c c H H (Datatypes.S (Datatypes.S k)) (Datatypes.S k) s l1 1). destruct (heapify_st cmp cmp (Datatypes.S (Datatypes.S k)) (Datatypes.S k) s l1 1) as [[s2 l2]| | |]; try reflexivity. cbn [bind rmap fst snd]. apply IH.
Qed.
Theorem heap_sort_plain : forall S A (cmp : stest S A) c, (forall s a b, fst (cmp s a b) = c a b) -> forall s l, rmap snd (heap_sort_st cmp s l) = heap_sort c l.
Proof.
  intros S A cmp c H s l. unfold heap_sort_st, heap_sort. rewrite <- (build_plain cmp cmp c c H H (length l) s l).
  destruct (build_any cmp cmp (fun _ => 0) (fun _ _ _ => Nat.le_0_l _) (fun _ _ _ => Nat.le_0_l _) s l) as (s1 & l1 & -> & P & _). cbn [bind rmap fst snd].
  rewrite (Permutation_length P). apply sort_loop_plain. exact H.
Qed.

Theorem sort_any_comparator : forall S A (cmp : S -> A -> A -> bool * S) s l, exists s' l', heap_sort_st cmp s l = Ok (s', l') /\ Permutation l l'.
Proof. intros S A cmp s l. destruct (heap_sort_any cmp (fun _ => 0) (fun _ _ _ => Nat.le_0_l _) s l) as (s' & l' & E & P & _). eauto. Qed.
Lemma plain_ok : forall (X : Type) (m : res (nat * X)) k x, m = Ok (k, x) -> rmap snd m = Ok x.
Proof. intros X m k x ->. reflexivity. Qed.
Theorem sort_count : forall A (c : A -> A -> bool) l, exists k l', heap_sort_st (counted c) 0 l = Ok (k, l') /\ heap_sort c l = Ok l' /\ k <= 2 * (length l - 1) * (1 + Nat.log2 (length l)).
Proof.
  intros A c l. destruct (heap_sort_any (counted c) (fun k => k) (fun _ _ _ => Nat.le_refl _) 0 l) as (k & l' & E & _ & C). exists k, l'. split; [exact E|]. split; [|exact C].
  rewrite <- (heap_sort_plain nat A (counted c) c (fun _ _ _ => eq_refl) 0 l). eapply plain_ok; eauto.
Qed.
Theorem make_count : forall asc l, exists k h, heap_make_count asc l = Ok (k, h) /\ heap_make asc l = Ok h /\ k <= 2 * (length l - 1).
Proof.
  intros asc l. destruct (build_any (counted (heap_test asc)) (counted (heap_test asc)) (fun k => k) (fun _ _ _ => Nat.le_refl _) (fun _ _ _ => Nat.le_refl _) 0 l) as (k & h & E & _ & C). exists k, h. split; [exact E|]. split; [|exact C].
  unfold heap_make. rewrite <- (build_plain (counted (heap_test asc)) (counted (heap_test asc)) _ _ (fun _ _ _ => eq_refl) (fun _ _ _ => eq_refl) (length l) 0 l). eapply plain_ok; eauto.
Qed.
Lemma sift_count : forall asc base, 1 <= length base -> exists k h, heapify_st (counted (heap_test asc)) (counted (heap_test asc)) (S (length base)) (length base) 0 base 1 = Ok (k, h) /\ heap_heapify asc base 1 = Ok h /\ k <= 2 * Nat.log2 (length base).
Proof.
  intros asc base L. destruct (heapify_any (counted (heap_test asc)) (counted (heap_test asc)) (fun k => k) (fun _ _ _ => Nat.le_refl _) (fun _ _ _ => Nat.le_refl _) (S (length base)) (length base) 0 base 1) as (k & h & E & _ & C); [lia|lia|lia|lia|].
  exists k, h. split; [exact E|]. rewrite Nat.div_1_r in C. split; [|exact C].
  unfold heap_heapify. rewrite <- (heapify_plain (counted (heap_test asc)) (counted (heap_test asc)) _ _ (fun _ _ _ => eq_refl) (fun _ _ _ => eq_refl) (S (length base)) (length base) 0 base 1). eapply plain_ok; eauto.
Qed.
Theorem push_count : forall asc base v, exists k h, heap_push_count asc base v = Ok (k, h) /\ heap_push asc base v = Ok h /\ k <= 2 * Nat.log2 (length base + 1).
Proof. intros asc base v. replace (length base + 1) with (length (v :: base)) by (cbn [length]; lia). apply sift_count. cbn [length]. lia. Qed.
Theorem pop_count : forall asc base, base <> [] -> exists k h, heap_pop_count asc base = Ok (k, h) /\ heap_pop asc base = Ok h /\ k <= 2 * Nat.log2 (length base - 1).
Proof.
  intros asc base NE. unfold heap_pop_count, heap_pop. destruct base as [|x base]; [congruence|]. destruct (swap_any N (x :: base) 0 (length (x :: base) - 1)) as (l1 & -> & L & _); [cbn [length]; lia|cbn [length]; lia|]. cbn [bind]. cbv zeta.
  assert (LF : length (firstn (length l1 - 1) l1) = length (x :: base) - 1) by (rewrite firstn_length; lia). rewrite <- LF.
  destruct (length base) as [|n] eqn:N.
  - assert (E : firstn (length l1 - 1) l1 = []) by (destruct l1 as [|y l1]; [reflexivity|]; cbn [length] in L; replace (length (y :: l1) - 1) with 0 by (cbn [length]; lia); reflexivity).
    rewrite E. exists 0, []. cbn. repeat split; auto.
  - apply sift_count. rewrite LF. cbn [length]. lia.
Qed.
