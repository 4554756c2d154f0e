(** The LCP array computed for an arbitrary order of the suffixes. *)
From Coq Require Import List NArith ZArith Arith Bool Lia Permutation.
From Verif Require Import Base Spec5 FitVectorModel FitVectorProof StreamModel StringStreamModel StringStreamProof SuffixModel LcpProof SaisCtor.
Import ListNotations.
Local Open Scope nat_scope.

Section Lcp.
Variables (s : list N) (v : fitvec) (l : list nat).
Hypothesis Hv : holds v l.
Hypothesis Hperm : Permutation l (seq 0 (length s)).
Let n := length s.
Definition carry (a inv : list nat) (i : nat) : nat := match i with 0 => 0 | S j => nth (nth j inv 0) a 0 - 1 end.
Definition value (a inv : list nat) (i : nat) : nat :=
  let p := nth i inv 0 in if S p <? n then carry a inv i + common_prefix (skipn (i + carry a inv i) s) (skipn (nth (S p) l 0 + carry a inv i) s) else 0.
Lemma loop_value : forall inv, length inv = n -> (forall p, p < n -> nth (nth p l 0) inv 0 = p) -> forall k, k <= n ->
  exists a prev, foldM (lcp_step s v inv) (seq 0 k) (repeat 0 n, 0) = Ok (a, prev) /\ length a = n /\ (forall i, i < n -> nth i a 0 <= n) /\
    prev = match k with 0 => 0 | S j => nth (nth j inv 0) a 0 end /\ forall i, i < k -> nth (nth i inv 0) a 0 = value a inv i.
Proof using Hv Hperm.
  intros inv L V. destruct Hv as [Hz Hg]. rewrite (len_l s l Hperm) in Hg.
  assert (Iv : forall i, i < n -> nth i inv 0 < n /\ nth (nth i inv 0) l 0 = i).
  { intros i Hi. destruct (l_surj s l Hperm i Hi) as (p & Hp & Lp). rewrite <- Lp, V; auto. }
  assert (Inj : forall i j, i < n -> j < n -> nth i inv 0 = nth j inv 0 -> i = j) by (intros i j Hi Hj E; destruct (Iv i Hi) as (_ & <-); destruct (Iv j Hj) as (_ & <-); now rewrite E).
  induction k as [|k IH]; intros H.
  - exists (repeat 0 n), 0. split; [reflexivity|]. split; [apply repeat_length|]. split; [intros i I; rewrite nth_repeat_lt by auto; lia|]. split; [auto|intros; lia].
  - destruct IH as (a & prev & E & La & Ba & Ep & Va); [lia|]. rewrite seq_S, foldM_app, E. cbn [bind foldM Nat.add lcp_step].
    rewrite (lget_nth _ _ k 0) by lia. cbn [bind]. destruct (Iv k ltac:(lia)) as (Hp & Lk). set (p := nth k inv 0) in *.
    assert (Eh : (if 1 <? prev then prev - 1 else 0) = carry a inv k).
    { unfold carry. rewrite Ep. destruct k as [|j]; [reflexivity|]. destruct (Nat.ltb_spec 1 (nth (nth j inv 0) a 0)); lia. }
    rewrite L. cbn zeta. rewrite Eh. set (h := carry a inv k) in *.
    assert (Hh : h <= n) by (unfold h, carry; destruct k as [|j]; [lia|]; specialize (Ba (nth j inv 0)); destruct (Iv j ltac:(lia)); lia).
    assert (X : (if p =? n - 1 then Ok 0 else do r <- fv_get v (p + 1); compare_lcp (S (length s)) s (k + h) (N.to_nat r + h) h) = Ok (value a inv k) /\ value a inv k <= n).
    { unfold value. fold p h. destruct (Nat.eqb_spec p (n - 1)) as [Q|Q]. { destruct (Nat.ltb_spec (S p) n); [lia|]. split; [reflexivity|lia]. }
      destruct (Nat.ltb_spec (S p) n) as [Hp'|]; [|lia]. rewrite Hg by (fold n; lia). cbn [bind]. rewrite Nnat.Nat2N.id. rewrite compare_ok by lia. replace (p + 1) with (S p) by lia. split; [reflexivity|].
      pose proof (common_le_l (skipn (k + h) s) (skipn (nth (S p) l 0 + h) s)) as C. rewrite skipn_length in C. fold n in C. lia. }
    destruct X as (Ex & Lx). rewrite Ex. cbn [bind]. rewrite lset_Ok by lia. cbn [bind]. set (x := value a inv k) in *. exists (upd a p x), x.
    assert (Same : forall i, i < k -> nth (nth i inv 0) (upd a p x) 0 = nth (nth i inv 0) a 0).
    { intros i Hi. rewrite nth_upd. destruct (Nat.eqb_spec (nth i inv 0) p) as [Q|Q]; [|reflexivity]. apply Inj in Q; lia. }
    assert (Here : nth p (upd a p x) 0 = x) by (rewrite nth_upd, Nat.eqb_refl; cbn [andb]; rewrite (proj2 (Nat.ltb_lt _ _)) by lia; reflexivity).
    assert (Cs : forall i, i <= k -> carry (upd a p x) inv i = carry a inv i) by (intros [|i] Hi; [reflexivity|]; cbn [carry]; rewrite Same by lia; reflexivity).
    split; [reflexivity|]. split; [rewrite upd_length; auto|]. split; [|split].
    + intros i I. rewrite nth_upd. destruct ((i =? p) && (p <? length a)); auto.
    + fold p. auto.
    + intros i Hi. unfold value. rewrite (Cs i) by lia. destruct (Nat.eq_dec i k) as [->|Ni]; [fold p; rewrite Here; reflexivity|]. rewrite Same by lia. rewrite Va by lia. reflexivity.
Qed.
Theorem lcp_value : s <> [] -> (N.of_nat (length s) < 2 ^ 31)%N -> exists w a, build_lcp s v = Ok w /\ fv_rep w (map N.of_nat a) true /\ length a = length s /\
  (forall q, q < length s -> nth q l 0 = 0 -> nth q a 0 = real s l q) /\
  forall p q, p < length s -> q < length s -> nth q l 0 = S (nth p l 0) ->
    nth q a 0 = if S q <? length s then (nth p a 0 - 1) + common_prefix (skipn (nth q l 0 + (nth p a 0 - 1)) s) (skipn (nth (S q) l 0 + (nth p a 0 - 1)) s) else 0.
Proof using Hv Hperm.
  intros NE B. destruct (invert_ok s v l Hv Hperm) as (inv & E & L & V). destruct (loop_value inv L V n ltac:(lia)) as (a & prev & El & La & Ba & _ & Va).
  unfold build_lcp. rewrite E. cbn [bind]. destruct Hv as [Hz _]. rewrite Hz, (len_l s l Hperm), L. fold n. rewrite El. cbn [bind fst]. pose proof (len_pos _ s NE) as Ln. fold n in Ln.
  destruct (fv_of_list_ok (map N.of_nat a)) as (w & Ew & Rw & _).
  { apply Forall_forall. intros x Hx. apply in_map_iff in Hx. destruct Hx as (y & <- & Hy). destruct (In_nth a y 0 Hy) as (p & Lp & Ep). rewrite La in Lp. specialize (Ba p Lp). fold n in B.
    change (2 ^ 31)%N with 2147483648%N in B. change (2 ^ 63)%N with 9223372036854775808%N. lia. }
  { destruct a; [cbn [length] in La; lia|discriminate]. }
  rewrite Ew. cbn [bind]. rewrite (lget_nth _ _ (n / 2) 0). 2: { rewrite La. apply Nat.div_lt; lia. }
  cbn [bind]. exists w, a. split; auto. split; auto. split; auto.
  assert (Vq : forall q, q < n -> nth q a 0 = value a inv (nth q l 0)) by (intros q Hq; rewrite <- (Va (nth q l 0) (l_in s l Hperm q Hq)); now rewrite V).
  split.
  - intros q Hq Z. rewrite Vq by auto. unfold value, real. rewrite V by auto. fold n. rewrite Z. cbn [carry]. rewrite !Nat.add_0_r. reflexivity.
  - intros p q Hp Hq S1. rewrite Vq by auto. unfold value. rewrite V by auto. fold n. rewrite S1. cbn [carry]. rewrite V by auto. reflexivity.
Qed.
End Lcp.

(** the entry of rank [p] if it is right *)
Theorem lcp_exact : forall s v l, s <> [] -> (N.of_nat (length s) < 2 ^ 31)%N -> Permutation l (seq 0 (length s)) -> fv_list v = Ok (map N.of_nat l) ->
  exists w a, build_lcp s v = Ok w /\ fv_list w = Ok (map N.of_nat a) /\ length a = length s /\
    (forall p q, p < length s -> S q < length s -> nth q l 0 = S (nth p l 0) ->
      nth q a 0 = (nth p a 0 - 1) + common_prefix (skipn (nth q l 0 + (nth p a 0 - 1)) s) (skipn (nth (S q) l 0 + (nth p a 0 - 1)) s)) /\
    (forall q, S q < length s -> nth q l 0 = 0 -> nth q a 0 = common_prefix (skipn (nth q l 0) s) (skipn (nth (S q) l 0) s)) /\
    nth (length s - 1) a 0 = 0 /\ (forall q, S q < length s -> common_prefix (skipn (nth q l 0) s) (skipn (nth (S q) l 0) s) <= nth q a 0) /\
    ((forall q, S q < length s -> nth q a 0 = common_prefix (skipn (nth q l 0) s) (skipn (nth (S q) l 0) s)) <->
     (forall p q, S p < length s -> S q < length s -> nth q l 0 = S (nth p l 0) ->
       common_prefix (skipn (nth p l 0) s) (skipn (nth (S p) l 0) s) <= common_prefix (skipn (nth q l 0) s) (skipn (nth (S q) l 0) s) + 1)).
Proof.
  intros s v l NE B P F.
  assert (Hv : holds v l).
  { assert (MM : forall (f : nat -> res N) k ys st, mapM f (seq st k) = Ok ys -> length ys = k /\ forall p, p < k -> f (st + p) = Ok (nth p ys 0%N)).
    { intros f. induction k as [|k IH]; intros ys st H; cbn [seq mapM] in H. { injection H as <-. split; auto. intros; lia. }
      apply bind_Ok_inv in H. destruct H as (y & Ey & H). apply bind_Ok_inv in H. destruct H as (zs & Ez & H). injection H as <-.
      destruct (IH _ _ Ez) as [L N]. split; [cbn [length]; lia|]. intros [|p] Hp; [rewrite Nat.add_0_r; exact Ey|]. cbn [nth]. rewrite <- N by lia. f_equal. lia. }
    unfold fv_list in F. destruct (MM _ _ _ _ F) as [L N]. rewrite map_length in L. split; [auto|]. intros p Hp. specialize (N p ltac:(lia)). cbn [Nat.add] in N. rewrite N. f_equal. change 0%N with (N.of_nat 0). apply map_nth. }
  destruct (lcp_value s v l Hv P NE B) as (w & a & Ew & Rw & La & Z & St). exists w, a. split; auto. split; [eapply rep_list; eauto|]. split; auto.
  assert (Lt : forall q, S q < length s -> (S q <? length s) = true) by (intros q Hq; now apply Nat.ltb_lt).
  assert (St' : forall p q, p < length s -> S q < length s -> nth q l 0 = S (nth p l 0) ->
      nth q a 0 = (nth p a 0 - 1) + common_prefix (skipn (nth q l 0 + (nth p a 0 - 1)) s) (skipn (nth (S q) l 0 + (nth p a 0 - 1)) s)) by (intros p q Hp Hq S1; rewrite (St p q) by (auto; lia); rewrite Lt by auto; reflexivity).
  assert (Z' : forall q, S q < length s -> nth q l 0 = 0 -> nth q a 0 = common_prefix (skipn (nth q l 0) s) (skipn (nth (S q) l 0) s)) by (intros q Hq E; rewrite Z by (auto; lia); unfold real; rewrite Lt by auto; reflexivity).
  assert (Last : nth (length s - 1) a 0 = 0).
  { pose proof (len_pos _ s NE) as Ln. set (q := length s - 1). assert (Fq : (S q <? length s) = false) by (apply Nat.ltb_ge; unfold q; lia). destruct (nth q l 0) as [|i] eqn:E.
    - rewrite Z by (auto; unfold q; lia). unfold real. rewrite Fq. reflexivity.
    - pose proof (l_in s l P q ltac:(unfold q; lia)) as Li. destruct (l_surj s l P i ltac:(lia)) as (p & Hp & Lp). rewrite (St p q) by (auto; try (unfold q; lia); congruence). rewrite Fq. reflexivity. }
  split; auto. split; auto. split; auto. split.
  { intros q Hq. destruct (nth q l 0) as [|i] eqn:E; [rewrite Z' by auto; rewrite E; auto|]. pose proof (l_in s l P q ltac:(lia)) as Li. destruct (l_surj s l P i ltac:(lia)) as (p & Hp & Lp). rewrite (St' p q) by (auto; congruence). rewrite E. apply common_skip_le. }
  split.
  - intros Ex p q Hp Hq S1. rewrite <- !Ex by auto. rewrite (St' p q) by (auto; lia). lia.
  - intros K. assert (G : forall i q, S q < length s -> nth q l 0 = i -> nth q a 0 = common_prefix (skipn (nth q l 0) s) (skipn (nth (S q) l 0) s)); [|intros q Hq; apply (G (nth q l 0)); auto].
    induction i as [|i IH]; intros q Hq E; [auto|]. pose proof (l_in s l P q ltac:(lia)) as Li. destruct (l_surj s l P i ltac:(lia)) as (p & Hp & Lp). assert (S1 : nth q l 0 = S (nth p l 0)) by congruence. rewrite (St' p q) by auto.
    symmetry. apply common_skip. destruct (Nat.eq_dec p (length s - 1)) as [->|Np]; [rewrite Last; lia|]. rewrite (IH p) by (auto; lia). specialize (K p q ltac:(lia) Hq S1). lia.
Qed.
