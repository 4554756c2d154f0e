(** Proofs about Heap.hpp, continued: how long the front of a heap stays right once an element has been pushed. *)
From Coq Require Import List NArith ZArith Arith Bool Lia Permutation.
From Verif Require Import Base Spec3 HeapModel HeapProof.
Import ListNotations.
Local Open Scope nat_scope.

Lemma Ok_inj : forall A (x y : A), Ok x = Ok y -> x = y.
Proof. intros A x y H. now injection H. Qed.
Lemma hle_total : forall asc a b, hle asc a b \/ hle asc b a.
Proof. intros [|] a b; simpl; lia. Qed.

(** one call of Heapify: the new element at [id] is at most the old one and its children; nothing else changes before the children *)
Lemma heapify_step : forall asc fuel sz l id h, sz = length l -> 1 <= id -> id <= sz ->
  heapify (heap_test asc) (heap_test asc) fuel sz l id = Ok h ->
  (forall k, k < 2 * id - 1 -> k <> id - 1 -> nth k h 0%N = nth k l 0%N) /\ hle asc (nth (id - 1) h 0%N) (nth (id - 1) l 0%N) /\
  (2 * id <= sz -> hle asc (nth (id - 1) h 0%N) (nth (2 * id - 1) l 0%N)) /\ (2 * id + 1 <= sz -> hle asc (nth (id - 1) h 0%N) (nth (2 * id) l 0%N)).
Proof.
  intros asc [|fuel] sz l id h Hsz H1 H2 E; cbn [heapify] in E; [discriminate|].
  pose proof (Nat.div_mod sz 2 ltac:(lia)) as D. pose proof (Nat.mod_upper_bound sz 2 ltac:(lia)) as D'.
  destruct (Nat.ltb_spec (sz / 2) id) as [Leaf|Inner].
  { injection E as <-. split; auto. split; [apply hle_refl|]. split; intros; lia. }
  apply bind_Ok_inv in E. destruct E as (m & Em & E).
  assert (M : 2 * id <= m /\ m <= sz /\ hle asc (nth (m - 1) l 0%N) (nth (2 * id - 1) l 0%N) /\ (2 * id + 1 <= sz -> hle asc (nth (m - 1) l 0%N) (nth (2 * id) l 0%N))).
  { destruct (Nat.leb_spec (2 * id + 1) sz).
    - rewrite !(lget_nth _ _ _ 0%N) in Em by lia. cbn [bind] in Em. replace (2 * id + 1 - 1) with (2 * id) in Em by lia.
      destruct (heap_test asc (nth (2 * id - 1) l 0%N) (nth (2 * id) l 0%N)) eqn:T; apply Ok_inj in Em; subst m.
      + split; [lia|]. split; [lia|]. replace (2 * id + 1 - 1) with (2 * id) by lia. split; [now apply heap_test_true|]. intros; apply hle_refl.
      + split; [lia|]. split; [lia|]. split; [apply hle_refl|]. intros; now apply heap_test_false.
    - apply Ok_inj in Em; subst m. split; [lia|]. split; [lia|]. split; [apply hle_refl|]. intros; lia. }
  destruct M as (M1 & M2 & M3 & M4). rewrite !(lget_nth _ _ _ 0%N) in E by lia. cbn [bind] in E.
  destruct (heap_test asc (nth (id - 1) l 0%N) (nth (m - 1) l 0%N)) eqn:T.
  - destruct (swap_spec N l (id - 1) (m - 1) 0%N) as (l1 & E1 & L1 & _ & N1); [lia|lia|]. rewrite E1 in E. cbn [bind] in E.
    assert (Lz : sz <= length l1) by lia.
    pose proof (heapify_before N (heap_test asc) (heap_test asc) 0%N _ sz l1 m h Lz ltac:(lia) E) as B.
    assert (B0 : nth (id - 1) h 0%N = nth (m - 1) l 0%N).
    { rewrite B by lia. rewrite N1. destruct (Nat.eqb_spec (id - 1) (m - 1)); [lia|]. now rewrite Nat.eqb_refl. }
    split; [|rewrite B0; split; [now apply heap_test_true|split; auto]].
    intros k K1 K2. rewrite B by lia. rewrite N1. destruct (Nat.eqb_spec k (m - 1)); [lia|]. destruct (Nat.eqb_spec k (id - 1)); [lia|]. reflexivity.
  - injection E as <-. apply heap_test_false in T. split; auto. split; [apply hle_refl|]. split; intros; eapply hle_trans; eauto.
Qed.

(** the least of the rest is the second or the third element *)
Definition next_least (asc : bool) (l : list N) : Prop :=
  length l <= 1 \/ exists j, (j = 1 \/ j = 2) /\ j < length l /\ forall k, 1 <= k < length l -> hle asc (nth j l 0%N) (nth k l 0%N).

Lemma is_heap_next : forall asc l, is_heap asc l -> next_least asc l.
Proof.
  intros asc l H. destruct (le_lt_dec (length l) 1) as [Sl|Sl]; [now left|]. right.
  assert (V : forall i, 1 <= i -> v N 0%N l i = nth (i - 1) l 0%N) by reflexivity.
  assert (Q : forall k, 2 <= k <= length l -> hle asc (nth 1 l 0%N) (nth (k - 1) l 0%N) \/ (3 <= length l /\ hle asc (nth 2 l 0%N) (nth (k - 1) l 0%N))).
  { intros k. induction k as [k IH] using lt_wf_ind. intros Hk. destruct (Nat.eq_dec k 2) as [->|]; [left; apply hle_refl|].
    destruct (Nat.eq_dec k 3) as [->|]; [right; split; [lia|apply hle_refl]|].
    pose proof (Nat.div_mod k 2 ltac:(lia)). pose proof (Nat.mod_upper_bound k 2 ltac:(lia)).
    assert (G : hle asc (nth (k / 2 - 1) l 0%N) (nth (k - 1) l 0%N)).
    { rewrite <- !V by lia. apply (H (k / 2)); lia. }
    destruct (IH (k / 2)) as [I1|(I0 & I1)]; [lia|lia|left|right; split; auto]; eapply hle_trans; eauto. }
  assert (K : forall j, (forall k, 2 <= k <= length l -> hle asc (nth j l 0%N) (nth (k - 1) l 0%N)) -> forall k, 1 <= k < length l -> hle asc (nth j l 0%N) (nth k l 0%N)).
  { intros j Hj k Hk. specialize (Hj (S k)). replace (S k - 1) with k in Hj by lia. apply Hj. lia. }
  destruct (le_lt_dec (length l) 2) as [S2|S2].
  - exists 1. split; auto. split; auto. apply K. intros k Hk. destruct (Q k Hk) as [|(X & _)]; auto. lia.
  - destruct (hle_total asc (nth 1 l 0%N) (nth 2 l 0%N)) as [T|T].
    + exists 1. split; auto. split; [lia|]. apply K. intros k Hk. destruct (Q k Hk) as [|(_ & X)]; auto. eapply hle_trans; eauto.
    + exists 2. split; auto. split; [lia|]. apply K. intros k Hk. destruct (Q k Hk) as [X|(_ & X)]; auto. eapply hle_trans; eauto.
Qed.

Lemma next_in : forall asc l, next_least asc l <-> length l <= 1 \/ exists j, (j = 1 \/ j = 2) /\ j < length l /\ forall y, In y (tl l) -> hle asc (nth j l 0%N) y.
Proof.
  intros asc l. unfold next_least. destruct l as [|a l]; [simpl; intuition lia|]. cbn [tl].
  split; (intros [|(j & J1 & J2 & J3)]; [now left|right; exists j; split; auto; split; auto]).
  - intros y Hy. destruct (In_nth l y 0%N Hy) as (k & Hk & <-). apply (J3 (S k)). cbn [length]. lia.
  - intros [|k] Hk; [lia|]. cbn [nth]. apply J3. apply nth_In. cbn [length] in Hk. lia.
Qed.

Lemma pop_front_next : forall asc l, l <> [] -> front_least asc l -> next_least asc l -> exists h, heap_pop asc l = Ok h /\ Permutation l (nth 0 l 0%N :: h) /\ front_least asc h.
Proof.
  intros asc l Hne F Nx. destruct (pop_contents asc l Hne) as (h & E & P). exists h. split; auto. split; auto.
  assert (P' : Permutation (tl l) h). { destruct l as [|a l]; [congruence|]. cbn [nth tl] in *. now apply Permutation_cons_inv in P. }
  intros y Hy. apply (Permutation_in _ (Permutation_sym P')) in Hy.
  apply next_in in Nx. destruct Nx as [Sl|(j & J1 & J2 & J3)].
  { destruct l as [|a [|b l]]; simpl in Sl; try lia; simpl in Hy; contradiction. }
  eapply hle_trans; [|apply (J3 y Hy)].
  unfold heap_pop in E. destruct l as [|x l0] eqn:El; [congruence|]. rewrite <- El in *. clear Hne.
  assert (L : length l = S (length l0)) by (subst; reflexivity).
  destruct (swap_spec N l 0 (length l - 1) 0%N) as (l1 & E1 & L1 & P1 & N1); [lia|lia|]. rewrite E1 in E. cbn [bind] in E. cbv zeta in E.
  rewrite L1, L in *. replace (S (length l0) - 1) with (length l0) in * by lia.
  destruct (last_swap l l1 (length l0)) as (P2 & L2); auto.
  unfold heap_heapify in E. set (l2 := firstn (length l0) l1) in *.
  assert (Z1 : 1 <= length l2) by lia. destruct (heapify_step asc _ _ _ _ _ eq_refl (le_n 1) Z1 E) as (_ & A & B & C). cbn [Nat.sub Nat.mul Nat.add] in A, B, C.
  assert (V : forall i, 0 < i -> i < length l0 -> nth i l2 0%N = nth i l 0%N).
  { intros k K1 K2. unfold l2. rewrite nth_firstn_lt by lia. rewrite N1. destruct (Nat.eqb_spec k (length l0)), (Nat.eqb_spec k 0); auto; lia. }
  assert (V0 : nth 0 l2 0%N = nth (length l0) l 0%N).
  { unfold l2. rewrite nth_firstn_lt by lia. rewrite N1. destruct (Nat.eqb_spec 0 (length l0)); [lia|]. reflexivity. }
  destruct (Nat.eq_dec j (length l0)) as [->|Nj]; [now rewrite <- V0|].
  rewrite <- (V j) by lia. destruct J1 as [-> | ->]; [apply B|apply C]; lia.
Qed.

Lemma push_next : forall asc l x, front_least asc l -> next_least asc l -> exists h, heap_push asc l x = Ok h /\ Permutation (x :: l) h /\ front_least asc h /\ next_least asc h.
Proof.
  intros asc l x F Nx. destruct (push_front asc l x F) as (h & E & P & Fh). exists h. split; auto. split; auto. split; auto.
  assert (Lh : length h = S (length l)) by (symmetry; apply (Permutation_length P)).
  apply next_in. destruct l as [|l0 l']; [left; simpl in Lh; lia|]. right. cbn [length] in Lh.
  assert (Fl : forall y, In y (l0 :: l') -> hle asc l0 y) by exact F.
  assert (Tl : forall y, In y (tl h) -> In y (x :: l0 :: l')).
  { intros y Hy. apply (Permutation_in _ (Permutation_sym P)). destruct h; [contradiction|]. now right. }
  unfold heap_push, heap_heapify in E. remember (length (x :: l0 :: l')) as sz eqn:Esz. assert (Hsz : sz = S (S (length l'))) by (subst; reflexivity).
  cbn [heapify] in E. pose proof (Nat.div_mod sz 2 ltac:(lia)) as D. pose proof (Nat.mod_upper_bound sz 2 ltac:(lia)) as D'.
  destruct (Nat.ltb_spec (sz / 2) 1) as [Leaf|_]; [lia|].
  apply bind_Ok_inv in E. destruct E as (m & Em & E).
  assert (M : m = 2 \/ (m = 3 /\ 3 <= sz /\ hle asc (nth 0 l' 0%N) l0)).
  { destruct (Nat.leb_spec (2 * 1 + 1) sz); [|left; now apply Ok_inj in Em].
    change (2 * 1 - 1) with 1 in Em. change (2 * 1 + 1 - 1) with 2 in Em. rewrite !(lget_nth _ _ _ 0%N) in Em by (simpl; lia). cbn [bind nth] in Em.
    destruct (heap_test asc l0 (nth 0 l' 0%N)) eqn:Ht; apply Ok_inj in Em; subst m; [right|now left]. split; [reflexivity|]. split; [lia|]. now apply heap_test_true. }
  change (1 - 1) with 0 in E. rewrite (lget_nth _ _ 0 0%N) in E by (simpl; lia). rewrite (lget_nth _ _ (m - 1) 0%N) in E by (rewrite <- Esz; destruct M as [->|(-> & ? & _)]; lia).
  cbn [bind] in E. change (nth 0 (x :: l0 :: l') 0%N) with x in E.
  destruct (heap_test asc x (nth (m - 1) (x :: l0 :: l') 0%N)) eqn:Hx.
  2:{ injection E as <-. exists 1. split; auto. split; [lia|]. cbn [nth tl]. exact Fl. }
  destruct (swap_spec N (x :: l0 :: l') 0 (m - 1) 0%N) as (l1 & E1 & L1 & P1 & N1); [simpl; lia|rewrite <- Esz; destruct M as [->|(-> & ? & _)]; lia|].
  rewrite E1 in E. cbn [bind] in E. assert (Lz : sz = length l1) by lia. apply heap_test_true in Hx.
  destruct M as [->|(-> & S3 & Hl)].
  - (* the new element goes to the left *)
    change (2 - 1) with 1 in *. cbn [nth] in Hx, N1.
    assert (Z1 : 1 <= 2) by lia. assert (Z2 : 2 <= sz) by lia. destruct (heapify_step asc _ _ _ _ _ Lz Z1 Z2 E) as (A & B & C & C'). change (2 * 2 - 1) with 3 in *. change (2 - 1) with 1 in *. change (2 * 2) with 4 in *.
    assert (H0 : nth 0 h 0%N = l0). { rewrite (A 0) by lia. rewrite N1. reflexivity. }
    rewrite N1 in B. cbn [Nat.eqb nth] in B.
    assert (P2 : Permutation (x :: l') (tl h)).
    { destruct h as [|a h]; [simpl in Lh; lia|]. cbn [nth tl] in *. subst a. apply Permutation_cons_inv with (a := l0). rewrite <- P. apply perm_swap. }
    apply next_in in Nx. destruct Nx as [Sn|(j & J1 & J2 & J3)].
    + destruct l'; [|simpl in Sn; lia]. exists 1. split; auto. split; [lia|]. intros y Hy. apply (Permutation_in _ (Permutation_sym P2)) in Hy.
      destruct Hy as [<-|[]]. exact B.
    + cbn [tl] in J3. cbn [length] in J2. destruct J1 as [-> | ->]; cbn [nth] in J3.
      * (* the old second element is now the third *)
        assert (H2 : nth 2 h 0%N = nth 0 l' 0%N). { rewrite (A 2) by lia. rewrite N1. reflexivity. }
        destruct (hle_total asc (nth 1 h 0%N) (nth 2 h 0%N)) as [Q|Q].
        -- exists 1. split; auto. split; [lia|]. intros y Hy. apply (Permutation_in _ (Permutation_sym P2)) in Hy. destruct Hy as [<-|Hy]; auto.
           eapply hle_trans; [exact Q|]. rewrite H2. now apply J3.
        -- exists 2. split; auto. split; [lia|]. intros y Hy. apply (Permutation_in _ (Permutation_sym P2)) in Hy. destruct Hy as [<-|Hy]; [eapply hle_trans; eauto|].
           rewrite H2. now apply J3.
      * (* the old third element is below the second *)
        exists 1. split; auto. split; [lia|]. intros y Hy. apply (Permutation_in _ (Permutation_sym P2)) in Hy. destruct Hy as [<-|Hy]; auto.
        eapply hle_trans; [|now apply J3]. rewrite N1 in C. cbn [Nat.eqb nth] in C. apply C. lia.
  - (* to the right: the second element is the old front *)
    change (3 - 1) with 2 in *. pose proof (heapify_before N (heap_test asc) (heap_test asc) 0%N _ sz l1 3 h ltac:(lia) ltac:(lia) E) as B.
    exists 1. split; auto. split; [lia|]. rewrite (B 1) by lia. rewrite N1. cbn [Nat.eqb nth]. intros y Hy. apply Tl in Hy. destruct Hy as [<-|Hy]; auto.
    cbn [nth] in Hx. eapply hle_trans; [|exact Hx]. apply Fl. right. apply nth_In. simpl in Hsz; lia.
Qed.

(** pops, then pushes, then at most one pop, then pushes *)
Lemma late_pop_front : forall asc l k xs p ys, p <= 1 -> k <= length l -> k + p <= length l + length xs -> k + p < length l + length xs + length ys ->
  exists h x, heap_run asc l (repeat HPop k ++ map HPush xs ++ repeat HPop p ++ map HPush ys) = Ok h /\ heap_front h = Ok x /\ In x h /\
    forall y, In y h -> hle asc x y.
Proof.
  intros asc l k xs p ys Hp Hk Hkp Hn. unfold heap_run. destruct (make_spec asc l) as (h & E & P & H). rewrite E. cbn [bind].
  rewrite foldM_app. assert (L : length h = length l) by (symmetry; now apply Permutation_length). rewrite <- L in *. clear E P L l.
  assert (G : exists h', foldM (heap_step asc) (repeat HPop k) h = Ok h' /\ is_heap asc h' /\ length h' = length h - k).
  { clear Hn Hkp. revert h H Hk. induction k; intros h H L.
    - exists h. split; [reflexivity|]. split; auto. lia.
    - cbn [repeat foldM heap_step]. destruct (pop_contents_gen asc h) as (h' & E' & P' & H'); auto; [destruct h; simpl in L; [lia|discriminate]|]. rewrite E'. cbn [bind].
      apply Permutation_length in P'. simpl in P'. destruct (IHk h' H') as (h2 & E2 & H2 & L2); [lia|]. exists h2. split; auto. split; auto. lia. }
  destruct G as (h1 & E1 & H1 & L1). rewrite E1. cbn [bind]. rewrite foldM_app. pose proof (is_heap_front _ _ H1) as F1. apply is_heap_next in H1. rename H1 into N1.
  assert (G : exists h', foldM (heap_step asc) (map HPush xs) h1 = Ok h' /\ front_least asc h' /\ next_least asc h' /\ length h' = length h1 + length xs).
  { clear E1 L1 Hn Hkp. revert h1 F1 N1. induction xs as [|x xs IH]; intros h1 F1 N1.
    - exists h1. split; [reflexivity|]. split; [auto|]. split; [auto|]. simpl. lia.
    - cbn [map foldM heap_step]. destruct (push_next asc h1 x F1 N1) as (h' & E' & P' & F' & N'). rewrite E'. cbn [bind].
      apply Permutation_length in P'. simpl in P'. destruct (IH h' F' N') as (h2 & E2 & F2 & N2 & L2). exists h2. split; auto. split; auto. split; auto. simpl. lia. }
  destruct G as (h2 & E2 & F2 & N2 & L2). rewrite E2. cbn [bind]. rewrite foldM_app.
  assert (G : exists h', foldM (heap_step asc) (repeat HPop p) h2 = Ok h' /\ front_least asc h' /\ length h' = length h2 - p).
  { destruct p as [|[|p]]; [exists h2; split; [reflexivity|]; split; auto; lia| |lia]. cbn [repeat foldM heap_step].
    assert (Hne : h2 <> []) by (destruct h2; simpl in L2; [lia|discriminate]). destruct (pop_front_next asc h2 Hne F2 N2) as (h' & E' & P' & F'). rewrite E'. cbn [bind]. exists h'. split; auto. split; auto.
    apply Permutation_length in P'. simpl in P'. lia. }
  destruct G as (h3 & E3 & F3 & L3). rewrite E3. cbn [bind].
  assert (Hn' : 0 < length h3 + length ys) by lia. clear - F3 Hn'. revert h3 F3 Hn'. induction ys as [|x xs IH]; intros h H Hn.
  - exists h, (nth 0 h 0%N). simpl in Hn. split; [reflexivity|]. split; [apply lget_nth; lia|]. split; [apply nth_In; lia|]. auto.
  - cbn [map foldM heap_step]. destruct (push_front asc h x H) as (h' & E' & P' & F'). rewrite E'. cbn [bind]. apply IH; auto.
    apply Permutation_length in P'. simpl in P'. lia.
Qed.
