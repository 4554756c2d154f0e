(** Proofs about HeapModel.v *)
From Coq Require Import List NArith ZArith Lia Bool Arith Permutation Sorted.
From Verif Require Import Base Spec3 HeapModel.
Import ListNotations.
Local Open Scope nat_scope.

Lemma upd_nth_same : forall A (l : list A) i d, upd l i (nth i l d) = l.
Proof. induction l; destruct i; intros; simpl; auto. now rewrite IHl. Qed.

Lemma swap_spec : forall A (l : list A) i j d, i < length l -> j < length l ->
  exists l', swap_at l i j = Ok l' /\ length l' = length l /\ Permutation l l' /\
    forall k, nth k l' d = if k =? j then nth i l d else if k =? i then nth j l d else nth k l d.
Proof.
  intros A l i j d Hi Hj. unfold swap_at. rewrite (lget_nth _ _ _ d Hi), (lget_nth _ _ _ d Hj). cbn [bind].
  rewrite lset_Ok by auto. cbn [bind]. rewrite lset_Ok by (rewrite upd_length; auto). eexists. split; [reflexivity|].
  split; [now rewrite !upd_length|].
  assert (N : forall k, nth k (upd (upd l i (nth j l d)) j (nth i l d)) d = if k =? j then nth i l d else if k =? i then nth j l d else nth k l d).
  { intros k. rewrite !nth_upd, upd_length. destruct (Nat.ltb_spec i (length l)), (Nat.ltb_spec j (length l)); try lia. now rewrite !andb_true_r. }
  split; [|exact N].
  apply (Permutation_nth l _ d). split; [now rewrite !upd_length|].
  exists (fun k => if k =? j then i else if k =? i then j else k). split; [|split].
  - intros k Hk. destruct (k =? j), (k =? i); auto.
  - intros x y Hx Hy. destruct (Nat.eqb_spec x j), (Nat.eqb_spec y j), (Nat.eqb_spec x i), (Nat.eqb_spec y i); intros; subst; auto; try lia.
  - intros k Hk. rewrite N. destruct (k =? j); auto. now destruct (k =? i).
Qed.

Section Heap.
Variables (A : Type) (d : A) (pick sink : A -> A -> bool) (le : A -> A -> Prop).
Hypothesis le_refl : forall a, le a a.
Hypothesis le_trans : forall a b c, le a b -> le b c -> le a c.
Hypothesis pick_true : forall a b, pick a b = true -> le b a.
Hypothesis pick_false : forall a b, pick a b = false -> le a b.
Hypothesis sink_true : forall a b, sink a b = true -> le b a.
Hypothesis sink_false : forall a b, sink a b = false -> le a b.

Definition v (l : list A) (i : nat) : A := nth (i - 1) l d.
Definition edges (sz : nat) (l : list A) (i : nat) : Prop := forall c, c = 2 * i \/ c = 2 * i + 1 -> c <= sz -> le (v l i) (v l c).
Definition heap_above (sz s : nat) (l : list A) : Prop := forall i, s <= i -> edges sz l i.

Lemma heapify_spec : forall fuel sz l id s, sz <= length l -> 1 <= s -> s <= id -> sz < id + fuel -> 0 < fuel ->
  (forall i, s <= i -> i <> id -> edges sz l i) ->
  (forall p c, s <= p -> id = 2 * p \/ id = 2 * p + 1 -> c = 2 * id \/ c = 2 * id + 1 -> c <= sz -> le (v l p) (v l c)) ->
  exists l', heapify pick sink fuel sz l id = Ok l' /\ length l' = length l /\ Permutation l l' /\ heap_above sz s l' /\
    (forall k, sz <= k -> nth k l' d = nth k l d) /\
    (forall P : A -> Prop, (forall k, k < sz -> P (nth k l d)) -> forall k, k < sz -> P (nth k l' d)).
Proof.
  induction fuel; intros sz l id s Hsz Hs Hid Hf Hf0 HE HG; [lia|]. cbn [heapify].
  pose proof (Nat.div_mod sz 2 ltac:(lia)) as Dm. pose proof (Nat.mod_upper_bound sz 2 ltac:(lia)) as Dl.
  destruct (Nat.ltb_spec (sz / 2) id) as [Leaf|Inner].
  - exists l. split; auto. split; auto. split; auto. split; auto. intros i Hi. destruct (Nat.eq_dec i id) as [->|N]; [|now apply HE].
    intros c Hc Hcs. lia.
  - assert (H2 : 2 * id <= sz) by lia. clear Dm Dl Inner.
    assert (M : exists m, (if 2 * id + 1 <=? sz then do a <- lget l (2 * id - 1); do b <- lget l (2 * id + 1 - 1); Ok (if pick a b then 2 * id + 1 else 2 * id) else Ok (2 * id)) = Ok m /\
                (m = 2 * id \/ m = 2 * id + 1) /\ m <= sz /\ forall c, c = 2 * id \/ c = 2 * id + 1 -> c <= sz -> le (v l m) (v l c)).
    { destruct (Nat.leb_spec (2 * id + 1) sz).
      - rewrite !(lget_nth _ _ _ d) by lia. cbn [bind]. fold (v l (2 * id)) (v l (2 * id + 1)).
        destruct (pick (v l (2 * id)) (v l (2 * id + 1))) eqn:E; eexists; (split; [reflexivity|]); (split; [auto|]); (split; [lia|]).
        + intros c [->| ->] _; auto.
        + intros c [->| ->] _; auto.
      - eexists. split; [reflexivity|]. split; auto. split; [lia|]. intros c [->| ->] Hc; [auto|lia]. }
    destruct M as (m & Em & Hm & Hms & Hmin). rewrite Em. cbn [bind]. rewrite !(lget_nth _ _ _ d) by lia. cbn [bind].
    fold (v l id) (v l m). destruct (sink (v l id) (v l m)) eqn:E.
    + destruct (swap_spec A l (id - 1) (m - 1) d) as (l1 & E1 & L1 & P1 & N1); [lia|lia|]. rewrite E1. cbn [bind].
      assert (V1 : forall i, 1 <= i -> v l1 i = if i =? m then v l id else if i =? id then v l m else v l i).
      { intros i Hi. unfold v. rewrite N1. destruct (Nat.eqb_spec (i - 1) (m - 1)), (Nat.eqb_spec i m), (Nat.eqb_spec (i - 1) (id - 1)), (Nat.eqb_spec i id); auto; lia. }
      destruct (IHfuel sz l1 m s) as (l2 & E2 & L2 & P2 & H2' & K2 & Q2); try lia.
      * intros i Hi Ni c Hc Hcs. rewrite !V1 by lia. destruct (Nat.eqb_spec i m); [lia|]. destruct (Nat.eqb_spec i id) as [->|Nid].
        -- destruct (Nat.eqb_spec c m); [subst; now apply sink_true|]. destruct (Nat.eqb_spec c id); [lia|]. now apply Hmin.
        -- destruct (Nat.eqb_spec c m); [lia|]. destruct (Nat.eqb_spec c id) as [->|].
           ++ apply (HG i m); auto.
           ++ apply (HE i); auto.
      * intros p c Hp Hpm Hc Hcs. assert (p = id) by lia. subst p. rewrite !V1 by lia. destruct (Nat.eqb_spec id m); [lia|]. rewrite Nat.eqb_refl.
        destruct (Nat.eqb_spec c m); [lia|]. destruct (Nat.eqb_spec c id); [lia|]. apply (HE m); auto; lia.
      * exists l2. split; auto. split; [lia|]. split; [now transitivity l1|]. split; auto. split.
        -- intros k Hk. rewrite K2 by auto. rewrite N1. destruct (Nat.eqb_spec k (m - 1)), (Nat.eqb_spec k (id - 1)); auto; lia.
        -- intros P HP k Hk. apply Q2; auto. intros j Hj. rewrite N1. destruct (j =? m - 1); [apply HP; lia|]. destruct (j =? id - 1); apply HP; lia.
    + exists l. split; auto. split; auto. split; auto. split; auto. intros i Hi. destruct (Nat.eq_dec i id) as [->|N]; [|now apply HE].
      intros c Hc Hcs. apply le_trans with (v l m); [now apply sink_false|now apply Hmin].
Qed.

Lemma build_spec : forall sz l, sz <= length l ->
  exists l', heap_build pick sink sz l = Ok l' /\ length l' = length l /\ Permutation l l' /\ heap_above sz 1 l' /\ (forall k, sz <= k -> nth k l' d = nth k l d).
Proof.
  intros sz l Hsz. unfold heap_build.
  assert (G : forall k l, length l >= sz -> heap_above sz (S k) l ->
    exists l', foldM (fun l id => heapify pick sink (S sz) sz l id) (rev (seq 1 k)) l = Ok l' /\ length l' = length l /\ Permutation l l' /\ heap_above sz 1 l' /\
      (forall j, sz <= j -> nth j l' d = nth j l d)).
  { induction k; intros l0 Hl H.
    - exists l0. repeat split; auto.
    - rewrite seq_S, rev_app_distr. cbn [rev app foldM]. replace (1 + k) with (S k) by lia.
      destruct (heapify_spec (S sz) sz l0 (S k) (S k)) as (l1 & E1 & L1 & P1 & H1 & K1 & _); try lia.
      + intros i Hi Ni. apply H. lia.
      + rewrite E1. cbn [bind]. destruct (IHk l1) as (l2 & E2 & L2 & P2 & H2 & K2); [lia|auto|].
        exists l2. split; auto. split; [lia|]. split; [now transitivity l1|]. split; auto. intros j Hj. now rewrite K2, K1. }
  apply G; auto. intros i Hi c Hc Hcs. pose proof (Nat.div_mod sz 2 ltac:(lia)). pose proof (Nat.mod_upper_bound sz 2 ltac:(lia)). lia.
Qed.

Lemma root_least : forall sz l, heap_above sz 1 l -> forall i, 1 <= i -> i <= sz -> le (v l 1) (v l i).
Proof using le_refl le_trans.
  clear pick_true pick_false sink_true sink_false pick sink.
  intros sz l H i. induction i as [i IH] using lt_wf_ind. intros Hi Hs. destruct (Nat.eq_dec i 1) as [->|N]; auto.
  pose proof (Nat.div_mod i 2 ltac:(lia)). pose proof (Nat.mod_upper_bound i 2 ltac:(lia)).
  apply le_trans with (v l (i / 2)).
  - apply IH; lia.
  - apply (H (i / 2)); lia.
Qed.
End Heap.

(** *** Heap *)
Definition hle (asc : bool) (a b : N) : Prop := if asc then (a <= b)%N else (b <= a)%N.
Lemma hle_refl : forall asc a, hle asc a a.
Proof. intros [|] a; simpl; lia. Qed.
Lemma hle_trans : forall asc a b c, hle asc a b -> hle asc b c -> hle asc a c.
Proof. intros [|] a b c; simpl; lia. Qed.
Lemma heap_test_true : forall asc a b, heap_test asc a b = true -> hle asc b a.
Proof. intros [|] a b; unfold heap_test, heap_compare; simpl; [destruct (N.ltb_spec a b)|destruct (N.ltb_spec b a)]; simpl; intros; try lia; discriminate. Qed.
Lemma heap_test_false : forall asc a b, heap_test asc a b = false -> hle asc a b.
Proof. intros [|] a b; unfold heap_test, heap_compare; simpl; [destruct (N.ltb_spec a b)|destruct (N.ltb_spec b a)]; simpl; intros; try lia; discriminate. Qed.

Definition is_heap (asc : bool) (l : list N) : Prop := heap_above N 0%N (hle asc) (length l) 1 l.

Lemma make_spec : forall asc l, exists h, heap_make asc l = Ok h /\ Permutation l h /\ is_heap asc h.
Proof.
  intros asc l. unfold heap_make.
  destruct (build_spec N 0%N (heap_test asc) (heap_test asc) (hle asc) (hle_refl asc) (hle_trans asc) (heap_test_true asc) (heap_test_false asc) (heap_test_true asc) (heap_test_false asc) (length l) l (le_n _)) as (h & E & L & P & H & _).
  exists h. split; auto. split; auto. unfold is_heap. now rewrite L.
Qed.

Definition front_least (asc : bool) (l : list N) : Prop := forall x, In x l -> hle asc (nth 0 l 0%N) x.
Lemma is_heap_front : forall asc l, is_heap asc l -> front_least asc l.
Proof.
  intros asc l H x Hx. destruct (In_nth l x 0%N Hx) as (k & Hk & <-).
  pose proof (root_least N 0%N (hle asc) (hle_refl asc) (hle_trans asc) (length l) l H (S k) ltac:(lia) ltac:(lia)) as R.
  unfold v in R. simpl in R. now rewrite Nat.sub_0_r in R.
Qed.

Lemma last_swap : forall (l l' : list N) n, length l = S n -> length l' = S n ->
  (forall k, nth k l' 0%N = if k =? n then nth 0 l 0%N else if k =? 0 then nth n l 0%N else nth k l 0%N) -> Permutation l l' ->
  Permutation l (nth 0 l 0%N :: firstn n l') /\ length (firstn n l') = n.
Proof.
  intros l l' n L L' N P. split; [|rewrite firstn_length; lia].
  transitivity l'; auto. rewrite <- (firstn_skipn n l') at 1. rewrite Permutation_app_comm.
  assert (E : skipn n l' = [nth 0 l 0%N]).
  { assert (length (skipn n l') = 1) by (rewrite skipn_length; lia). destruct (skipn n l') as [|a [|]] eqn:S; simpl in H; try lia. f_equal.
    specialize (N n). rewrite Nat.eqb_refl in N. rewrite <- N. rewrite <- (firstn_skipn n l'). rewrite S, app_nth2 by (rewrite firstn_length; lia).
    rewrite firstn_length. replace (n - Nat.min n (length l')) with 0 by lia. reflexivity. }
  rewrite E. reflexivity.
Qed.

Lemma nth_firstn_lt : forall A (l : list A) n k d, k < n -> nth k (firstn n l) d = nth k l d.
Proof. induction l; intros [|n] [|k] d H; simpl; auto; try lia. apply IHl. lia. Qed.

Lemma pop_contents_gen : forall asc l, l <> [] -> (is_heap asc l -> exists h, heap_pop asc l = Ok h /\ Permutation l (nth 0 l 0%N :: h) /\ is_heap asc h).
Proof.
  intros asc l Hne H. unfold heap_pop. destruct l as [|x l0] eqn:El; [congruence|]. rewrite <- El in *. clear Hne.
  assert (L : length l = S (length l0)) by (subst; reflexivity).
  destruct (swap_spec N l 0 (length l - 1) 0%N) as (l1 & E1 & L1 & P1 & N1); [lia|lia|]. rewrite E1. cbn [bind]. cbv zeta.
  rewrite L1, L in *. replace (S (length l0) - 1) with (length l0) in * by lia.
  destruct (last_swap l l1 (length l0)) as (P2 & L2); auto.
  set (l2 := firstn (length l0) l1) in *. unfold heap_heapify.
  destruct (heapify_spec N 0%N (heap_test asc) (heap_test asc) (hle asc) (hle_refl asc) (hle_trans asc) (heap_test_true asc) (heap_test_false asc) (heap_test_true asc) (heap_test_false asc)
    (S (length l2)) (length l2) l2 1 1) as (h & E & Lh & Ph & Hh & _); try lia.
  - intros i Hi Ni c Hc Hcs. unfold v. assert (V : forall i, 1 < i -> i <= length l2 -> nth (i - 1) l2 0%N = nth (i - 1) l 0%N).
    { intros k K1 K2. unfold l2. rewrite nth_firstn_lt by lia. rewrite N1. destruct (Nat.eqb_spec (k - 1) (length l0)), (Nat.eqb_spec (k - 1) 0); auto; lia. }
    rewrite !V by lia. apply (H i); auto. lia.
  - exists h. split; auto. split; [now rewrite <- Ph|]. unfold is_heap. now rewrite Lh.
Qed.

Lemma drain_spec : forall asc k l, length l = k -> is_heap asc l ->
  exists out, heap_drain asc k l = Ok out /\ Permutation l out /\ StronglySorted (hle asc) out.
Proof.
  intros asc. induction k; intros l L H.
  - destruct l; [|discriminate]. exists []. repeat constructor.
  - assert (Hne : l <> []) by (destruct l; discriminate). cbn [heap_drain]. unfold heap_front. rewrite (lget_nth _ _ _ 0%N) by lia. cbn [bind].
    destruct (pop_contents_gen asc l Hne H) as (h & E & P & Hh). rewrite E. cbn [bind].
    assert (Lh : length h = k) by (apply Permutation_length in P; simpl in P; lia).
    destruct (IHk h Lh Hh) as (out & E2 & P2 & S2). rewrite E2. cbn [bind]. eexists. split; [reflexivity|]. split.
    + transitivity (nth 0 l 0%N :: h); auto.
    + constructor; auto. apply Forall_forall. intros y Hy. apply (is_heap_front asc l H).
      eapply Permutation_in; [symmetry; exact P|]. right. eapply Permutation_in; [symmetry; exact P2|exact Hy].
Qed.

Lemma make_drain : forall asc l, exists h out, heap_make asc l = Ok h /\ heap_drain asc (length l) h = Ok out /\ Permutation l out /\ StronglySorted (hle asc) out.
Proof.
  intros asc l. destruct (make_spec asc l) as (h & E & P & H). destruct (drain_spec asc (length l) h) as (out & E2 & P2 & S2); auto.
  - symmetry. now apply Permutation_length.
  - exists h, out. split; auto. split; auto. split; auto. now transitivity h.
Qed.

Lemma pops_front : forall asc l k, k < length l -> exists h x, heap_run asc l (repeat HPop k) = Ok h /\ heap_front h = Ok x /\ In x h /\ forall y, In y h -> hle asc x y.
Proof.
  intros asc l k Hk. unfold heap_run. destruct (make_spec asc l) as (h & E & P & H). rewrite E. cbn [bind].
  assert (L : k < length h) by (rewrite <- (Permutation_length P); auto). clear E P Hk l. revert h H L. induction k; intros h H L.
  - exists h, (nth 0 h 0%N). split; [reflexivity|]. split; [apply lget_nth; lia|]. split; [apply nth_In; lia|]. intros y Hy. now apply is_heap_front.
  - cbn [repeat foldM heap_step]. destruct (pop_contents_gen asc h) as (h' & E' & P' & H'); auto; [destruct h; simpl in L; [lia|discriminate]|]. rewrite E'. cbn [bind].
    apply IHk; auto. apply Permutation_length in P'. simpl in P'. lia.
Qed.

(** Without any order: what Heapify always does *)
Lemma heapify_perm : forall A (pick sink : A -> A -> bool) (d : A) fuel sz l id, sz <= length l -> 1 <= id -> sz < id + fuel -> 0 < fuel ->
  exists l', heapify pick sink fuel sz l id = Ok l' /\ Permutation l l'.
Proof.
  intros A pick sink d fuel sz l id H1 H2 H3 H4.
  destruct (heapify_spec A d pick sink (fun _ _ => True)) with (fuel := fuel) (sz := sz) (l := l) (id := id) (s := id) as (l' & E & _ & P & _); auto.
  - intros i Hi Ni c Hc Hs. exact I.
  - exists l'. auto.
Qed.

Lemma push_contents : forall asc l x, exists h, heap_push asc l x = Ok h /\ Permutation (x :: l) h.
Proof. intros. unfold heap_push, heap_heapify. apply (heapify_perm N _ _ 0%N); simpl; lia. Qed.
Lemma pop_contents : forall asc l, l <> [] -> exists h, heap_pop asc l = Ok h /\ Permutation l (nth 0 l 0%N :: h).
Proof.
  intros asc l Hne. unfold heap_pop. destruct l as [|x l0] eqn:El; [congruence|]. rewrite <- El in *. clear Hne.
  assert (L : length l = S (length l0)) by (subst; reflexivity).
  destruct (swap_spec N l 0 (length l - 1) 0%N) as (l1 & E1 & L1 & P1 & N1); [lia|lia|]. rewrite E1. cbn [bind]. cbv zeta.
  rewrite L1, L in *. replace (S (length l0) - 1) with (length l0) in * by lia.
  destruct (last_swap l l1 (length l0)) as (P2 & L2); auto. unfold heap_heapify.
  destruct (heapify_perm N (heap_test asc) (heap_test asc) 0%N (S (length (firstn (length l0) l1))) (length (firstn (length l0) l1)) (firstn (length l0) l1) 1) as (h & E & P); try lia.
  exists h. split; auto. now rewrite <- P.
Qed.

(** Heapify below position [id] leaves the earlier elements alone *)
Lemma heapify_before : forall A (pick sink : A -> A -> bool) (d : A) fuel sz l id l', sz <= length l -> 1 <= id ->
  heapify pick sink fuel sz l id = Ok l' -> forall k, k < id - 1 -> nth k l' d = nth k l d.
Proof.
  intros A pick sink d. induction fuel; intros sz l id l' Hsz Hid E k Hk; cbn [heapify] in E; [discriminate|].
  destruct (sz / 2 <? id); [now injection E as <-|].
  apply bind_Ok_inv in E. destruct E as (m & Em & E). assert (Hm : m = 2 * id \/ m = 2 * id + 1).
  { destruct (2 * id + 1 <=? sz); [|injection Em; auto]. apply bind_Ok_inv in Em. destruct Em as (a & _ & Em). apply bind_Ok_inv in Em. destruct Em as (b & _ & Em).
    destruct (pick a b); injection Em; auto. }
  apply bind_Ok_inv in E. destruct E as (x & Ex & E). apply bind_Ok_inv in E. destruct E as (y & Ey & E). destruct (sink x y); [|now injection E as <-].
  apply bind_Ok_inv in E. destruct E as (l1 & E1 & E).
  apply lget_Ok in Ex. apply lget_Ok in Ey. assert (X : id - 1 < length l) by (apply nth_error_Some; congruence). assert (Y : m - 1 < length l) by (apply nth_error_Some; congruence).
  destruct (swap_spec A l (id - 1) (m - 1) d X Y) as (l1' & E1' & L1 & _ & N1). rewrite E1 in E1'. injection E1' as <-.
  rewrite (IHfuel sz l1 m l') by (auto; lia). rewrite N1. destruct (Nat.eqb_spec k (m - 1)), (Nat.eqb_spec k (id - 1)); auto; lia.
Qed.

Lemma push_front : forall asc l x, front_least asc l -> exists h, heap_push asc l x = Ok h /\ Permutation (x :: l) h /\ front_least asc h.
Proof.
  intros asc l x F. destruct (push_contents asc l x) as (h & E & P). exists h. split; auto. split; auto.
  assert (Fr : hle asc (nth 0 h 0%N) x /\ (l <> [] -> hle asc (nth 0 h 0%N) (nth 0 l 0%N))).
  { unfold heap_push, heap_heapify in E. cbn [length] in E. remember (S (length l)) as sz eqn:Esz.
    cbn [heapify] in E.
    destruct (Nat.ltb_spec (sz / 2) 1) as [Leaf|Inner].
    - injection E as <-. cbn [nth]. split; [apply hle_refl|]. intros Hne. exfalso. destruct l; [congruence|]. simpl length in *.
      pose proof (Nat.div_mod sz 2 ltac:(lia)). pose proof (Nat.mod_upper_bound sz 2 ltac:(lia)). lia.
    - assert (Hne : l <> []) by (intros ->; subst sz; simpl in Inner; lia).
      apply bind_Ok_inv in E. destruct E as (m & Em & E).
      assert (M : exists k, m = S (S k) /\ k < length l /\ hle asc (nth k l 0%N) (nth 0 l 0%N)).
      { destruct (Nat.leb_spec (2 * 1 + 1) sz).
        - change (2 * 1 - 1) with 1 in Em. change (2 * 1 + 1 - 1) with 2 in Em. rewrite !(lget_nth _ _ _ 0%N) in Em by (simpl; lia). cbn [bind nth] in Em.
          destruct (heap_test asc (nth 0 l 0%N) (nth 1 l 0%N)) eqn:T; injection Em as <-.
          + exists 1. split; [reflexivity|]. split; [lia|]. now apply heap_test_true.
          + exists 0. split; [reflexivity|]. split; [lia|]. apply hle_refl.
        - injection Em as <-. exists 0. split; [reflexivity|]. split; [destruct l; [congruence|simpl; lia]|apply hle_refl]. }
      destruct M as (k & -> & Hk & Hle). change (1 - 1) with 0 in E. replace (S (S k) - 1) with (S k) in E by lia.
      rewrite !(lget_nth _ _ _ 0%N) in E by (simpl length; lia). cbn [bind nth] in E.
      destruct (heap_test asc x (nth k l 0%N)) eqn:T.
      + destruct (swap_spec N (x :: l) 0 (S k) 0%N) as (l1 & E1 & L1 & P1 & N1); [simpl; lia|simpl; lia|]. rewrite E1 in E. cbn [bind] in E.
        assert (Lz : sz <= length l1) by (cbn [length] in L1; lia).
        rewrite (heapify_before N (heap_test asc) (heap_test asc) 0%N _ sz l1 (S (S k)) h Lz ltac:(lia) E 0 ltac:(lia)). rewrite N1. cbn [Nat.eqb nth].
        split; [now apply heap_test_true|]. auto.
      + injection E as <-. cbn [nth]. split; [apply hle_refl|]. intros _. eapply hle_trans; [apply (heap_test_false _ _ _ T)|exact Hle]. }
  destruct Fr as (F1 & F2). intros y Hy. apply (Permutation_in _ (Permutation_sym P)) in Hy. destruct Hy as [<-|Hy]; auto.
  assert (Hne : l <> []) by (intros ->; contradiction). eapply hle_trans; [now apply F2|now apply F].
Qed.

Lemma pops_pushes_front : forall asc l k xs, k <= length l -> k < length l + length xs ->
  exists h x, heap_run asc l (repeat HPop k ++ map HPush xs) = Ok h /\ heap_front h = Ok x /\ In x h /\ (forall y, In y h -> hle asc x y).
Proof.
  intros asc l k xs Hk Hn. unfold heap_run. destruct (make_spec asc l) as (h & E & P & H). rewrite E. cbn [bind].
  rewrite foldM_app. assert (L : k <= length h) by (rewrite <- (Permutation_length P); auto).
  assert (Ln : length h = length l) by (symmetry; now apply Permutation_length). rewrite <- Ln in Hn. clear E P Hk Ln l.
  assert (G : exists h', foldM (heap_step asc) (repeat HPop k) h = Ok h' /\ is_heap asc h' /\ length h' = length h - k).
  { clear Hn. revert h H L. induction k; intros h H L.
    - exists h. split; [reflexivity|]. split; auto. lia.
    - cbn [repeat foldM heap_step]. destruct (pop_contents_gen asc h) as (h' & E' & P' & H'); auto; [destruct h; simpl in L; [lia|discriminate]|]. rewrite E'. cbn [bind].
      apply Permutation_length in P'. simpl in P'. destruct (IHk h' H') as (h2 & E2 & H2 & L2); [lia|]. exists h2. split; auto. split; auto. lia. }
  destruct G as (h1 & E1 & H1 & L1). rewrite E1. cbn [bind]. apply is_heap_front in H1.
  assert (Hn' : 0 < length h1 + length xs) by lia. clear E1 L1 Hn H L h k. revert h1 H1 Hn'. induction xs as [|x xs IH]; intros h H Hn.
  - exists h, (nth 0 h 0%N). simpl in Hn. split; [reflexivity|]. split; [apply lget_nth; lia|]. split; [apply nth_In; lia|]. auto.
  - cbn [map foldM heap_step]. destruct (push_front asc h x H) as (h' & E' & P' & F'). rewrite E'. cbn [bind]. apply IH; auto.
    apply Permutation_length in P'. simpl in P'. lia.
Qed.

(** *** HeapSort *)
Section Sort.
Variables (A : Type) (cmp : A -> A -> bool) (d : A).
Hypothesis W : strict_weak_order cmp.
Definition sle (a b : A) : Prop := cmp a b = false.

Lemma sle_refl : forall a, sle a a.
Proof. apply W. Qed.
Lemma sle_trans : forall a b c, sle a b -> sle b c -> sle a c.
Proof.
  unfold sle. destruct W as (Ir & Tr & Eq). intros a b c H1 H2. destruct (cmp a c) eqn:E; auto.
  destruct (cmp b a) eqn:E1.
  - pose proof (Tr _ _ _ E1 E). congruence.
  - destruct (cmp c b) eqn:E2.
    + pose proof (Tr _ _ _ E E2). congruence.
    + destruct (Eq a b c); auto. congruence.
Qed.
Lemma cmp_true : forall a b, cmp a b = true -> sle b a.
Proof.
  unfold sle. destruct W as (Ir & Tr & Eq). intros a b H. destruct (cmp b a) eqn:E; auto. pose proof (Tr _ _ _ H E). rewrite Ir in H0. discriminate.
Qed.

Lemma sort_loop_spec : forall k l, k <= length l -> heap_above A d sle k 1 l ->
  (forall i j, i < j -> k <= j -> j < length l -> sle (nth j l d) (nth i l d)) ->
  exists l', sort_loop cmp k l = Ok l' /\ Permutation l l' /\ forall i j, i < j -> j < length l' -> sle (nth j l' d) (nth i l' d).
Proof.
  induction k as [|k IH]; intros l Hk H Hs.
  - exists l. split; [reflexivity|]. split; auto. intros. apply Hs; auto; lia.
  - destruct k as [|k'].
    + exists l. split; [reflexivity|]. split; auto. intros. apply Hs; auto; lia.
    + remember (S k') as k eqn:Ek. assert (Es : sort_loop cmp (S k) l = (do l <- swap_at l 0 k; do l <- heapify cmp cmp (S k) k l 1; sort_loop cmp k l)) by (rewrite Ek; reflexivity).
      rewrite Es. clear Es.
      destruct (swap_spec A l 0 k d) as (l1 & E1 & L1 & P1 & N1); [lia|lia|]. rewrite E1. cbn [bind].
      destruct (heapify_spec A d cmp cmp sle sle_refl sle_trans cmp_true (fun a b e => e) cmp_true (fun a b e => e) (S k) k l1 1 1) as (l2 & E2 & L2 & P2 & H2 & K2 & Q2); try lia.
      * intros i Hi Ni c Hc Hcs. unfold v. rewrite !N1. destruct (Nat.eqb_spec (i - 1) k), (Nat.eqb_spec (c - 1) k), (Nat.eqb_spec (i - 1) 0), (Nat.eqb_spec (c - 1) 0); try lia.
        apply (H i); auto.
      * rewrite E2. cbn [bind]. destruct (IH l2) as (l3 & E3 & P3 & S3); auto; [lia| |].
        -- intros i j Hij Hj Hl.
           assert (Top : forall x, x <= k -> sle (nth 0 l d) (nth x l d)).
           { intros x Hx. pose proof (root_least A d sle sle_refl sle_trans (S k) l H (S x) ltac:(lia) ltac:(lia)) as R. unfold v in R. simpl in R. now rewrite Nat.sub_0_r in R. }
           rewrite (K2 j) by lia. rewrite N1. destruct (Nat.eqb_spec j k) as [->|Njk].
           ++ (* the new maximum against the prefix *)
              apply (Q2 (fun x => sle (nth 0 l d) x)); [|lia]. intros x Hx. rewrite N1.
              destruct (Nat.eqb_spec x k), (Nat.eqb_spec x 0); try lia; apply Top; lia.
           ++ destruct (Nat.eqb_spec j 0); [lia|]. destruct (Nat.lt_ge_cases i k) as [Hi|Hi].
              ** apply (Q2 (fun x => sle (nth j l d) x)); [|lia]. intros x Hx. rewrite N1. destruct (Nat.eqb_spec x k), (Nat.eqb_spec x 0); try lia; apply Hs; lia.
              ** rewrite (K2 i) by lia. rewrite N1. destruct (Nat.eqb_spec i k), (Nat.eqb_spec i 0); try lia; apply Hs; lia.
        -- exists l3. split; auto. split; auto. transitivity l1; auto. transitivity l2; auto.
Qed.

Lemma heap_sort_spec : forall l, exists l', heap_sort cmp l = Ok l' /\ Permutation l l' /\ ordered_by cmp l'.
Proof.
  intros l. unfold heap_sort.
  destruct (build_spec A d cmp cmp sle sle_refl sle_trans cmp_true (fun a b e => e) cmp_true (fun a b e => e) (length l) l (le_n _)) as (l1 & E1 & L1 & P1 & H1 & _).
  rewrite E1. cbn [bind]. destruct (sort_loop_spec (length l) l1) as (l2 & E2 & P2 & S2); auto; [lia|intros; lia|].
  rewrite <- L1 in E2 at 1. rewrite E2. exists l2. split; auto. split; [now transitivity l1|].
  intros i j a b Hij Ha Hb. assert (j < length l2) by (apply nth_error_Some; congruence).
  apply (nth_error_nth _ _ d) in Ha. apply (nth_error_nth _ _ d) in Hb. subst. now apply S2.
Qed.
End Sort.

Lemma heap_sort_ok : forall A (cmp : A -> A -> bool) l, strict_weak_order cmp ->
  exists l', heap_sort cmp l = Ok l' /\ Permutation l l' /\ ordered_by cmp l'.
Proof.
  intros A cmp [|d l] W.
  - exists []. split; [reflexivity|]. split; auto. intros i j a b _ H. destruct i; discriminate.
  - now apply heap_sort_spec.
Qed.
