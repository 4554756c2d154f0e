(** Proofs about the LCP array of SuffixModel. *)
From Coq Require Import List NArith ZArith Arith Bool Lia Permutation.
From Verif Require Import Base Spec5 FitVectorModel FitVectorProof SuffixModel.
Import ListNotations.
Local Open Scope nat_scope.

Lemma lex_lt_trans : forall a b c, lex_lt a b -> lex_lt b c -> lex_lt a c.
Proof.
  induction a as [|x a IH]; intros [|y b] [|z c]; cbn [lex_lt]; try tauto.
  intros [H|[-> H]] [K|[-> K]]; try (left; lia). right. split; auto. eapply IH; eauto.
Qed.
Lemma lex_lt_irrefl : forall a, ~ lex_lt a a.
Proof. induction a as [|x a IH]; cbn [lex_lt]; [tauto|]. intros [H|[_ H]]; [lia|auto]. Qed.
Lemma common_mono : forall a b c, lex_lt a b -> lex_lt b c -> common_prefix a c <= common_prefix a b.
Proof.
  induction a as [|x a IH]; intros [|y b] [|z c]; cbn [lex_lt common_prefix]; try tauto; try lia.
  intros H K. destruct (x =? z)%N eqn:E; [|lia]. apply N.eqb_eq in E. subst z.
  assert (y = x) by lia. subst y. rewrite N.eqb_refl. specialize (IH b c).
  destruct H as [H|[_ H]]; [lia|]. destruct K as [K|[_ K]]; [lia|]. specialize (IH H K). lia.
Qed.
Lemma common_le_l : forall a b, common_prefix a b <= length a.
Proof. induction a as [|x a IH]; intros [|y b]; cbn [common_prefix length]; try lia. destruct (x =? y)%N; [specialize (IH b)|]; lia. Qed.
Lemma skipn_S : forall (s : list N) i d, i < length s -> skipn i s = nth i s d :: skipn (S i) s.
Proof. induction s as [|x s IH]; intros i d H; [cbn [length] in H; lia|]. destruct i; [reflexivity|]. cbn [length] in H. cbn [skipn nth]. rewrite (IH i d) by lia. reflexivity. Qed.
Lemma skipn_past : forall (s : list N) i, length s <= i -> skipn i s = [].
Proof. intros. apply skipn_all2. lia. Qed.
Lemma common_skip : forall s i r h, h <= common_prefix (skipn i s) (skipn r s) -> common_prefix (skipn i s) (skipn r s) = h + common_prefix (skipn (i + h) s) (skipn (r + h) s).
Proof.
  intros s i r h. revert i r. induction h as [|h IH]; intros i r H. { rewrite !Nat.add_0_r. reflexivity. }
  destruct (le_lt_dec (length s) i) as [Li|Li]. { rewrite (skipn_past s i Li) in H. cbn [common_prefix] in H. lia. }
  destruct (le_lt_dec (length s) r) as [Lr|Lr]. { rewrite (skipn_past s r Lr), (skipn_S s i 0%N Li) in H. cbn [common_prefix] in H. lia. }
  rewrite (skipn_S s i 0%N Li), (skipn_S s r 0%N Lr) in H |- *. cbn [common_prefix] in H |- *.
  destruct (_ =? _)%N; [|lia]. rewrite (IH (S i) (S r)) by lia. replace (S i + h) with (i + S h) by lia. replace (S r + h) with (r + S h) by lia. reflexivity.
Qed.
Lemma compare_ok : forall fuel s li ri m, length s - li < fuel -> compare_lcp fuel s li ri m = Ok (m + common_prefix (skipn li s) (skipn ri s)).
Proof.
  induction fuel as [|fuel IH]; intros s li ri m H; [lia|]. cbn [compare_lcp].
  destruct (Nat.ltb_spec (Nat.max li ri) (length s)) as [L|L].
  - rewrite (lget_nth _ _ li 0%N), (lget_nth _ _ ri 0%N) by lia. cbn [bind].
    rewrite (skipn_S s li 0%N), (skipn_S s ri 0%N) by lia. cbn [common_prefix].
    destruct (_ =? _)%N. + rewrite IH by lia. f_equal. lia. + f_equal. lia.
  - assert (common_prefix (skipn li s) (skipn ri s) = 0) as ->; [|f_equal; lia].
    destruct (le_lt_dec (length s) li) as [Li|Li]. { rewrite (skipn_past s li Li). reflexivity. }
    rewrite (skipn_past s ri) by lia. destruct (skipn li s); reflexivity.
Qed.

(** what a FitVector holds *)
Definition holds (v : fitvec) (l : list nat) : Prop := fv_size v = length l /\ forall p, p < length l -> fv_get v p = Ok (N.of_nat (nth p l 0)).

Lemma len_pos : forall (A : Type) (a : list A), a <> [] -> 0 < length a.
Proof. intros A [|x a] H; [congruence|cbn [length]; lia]. Qed.

Section Lcp.
Variables (s : list N) (v : fitvec) (l : list nat).
Hypothesis Hv : holds v l.
Hypothesis Hperm : Permutation l (seq 0 (length s)).
Let n := length s.
Lemma len_l : length l = n.
Proof using Hperm. pose proof Hperm as P. rewrite (Permutation_length P), seq_length. reflexivity. Qed.
Lemma l_in : forall p, p < n -> nth p l 0 < n.
Proof using Hperm.
  intros p H. pose proof Hperm as P. assert (I : In (nth p l 0) l) by (apply nth_In; rewrite len_l; auto).
  apply (Permutation_in _ P) in I. apply in_seq in I. unfold n. lia.
Qed.
Lemma l_inj : forall p q, p < n -> q < n -> nth p l 0 = nth q l 0 -> p = q.
Proof using Hperm.
  intros p q Lp Lq E. assert (ND : NoDup l). { pose proof Hperm as P. eapply Permutation_NoDup; [apply Permutation_sym; exact P|apply seq_NoDup]. }
  rewrite (NoDup_nth l 0) in ND. apply ND; rewrite ?len_l; auto.
Qed.
Lemma l_surj : forall i, i < n -> exists p, p < n /\ nth p l 0 = i.
Proof using Hperm.
  intros i H. assert (I : In i l). { pose proof Hperm as P. apply (Permutation_in _ (Permutation_sym P)). apply in_seq. unfold n in H. lia. }
  destruct (In_nth l i 0 I) as (p & L & E). exists p. rewrite len_l in L. auto.
Qed.
Lemma cset_ok : forall (A : Type) (a : list A) i x, i < length a -> cset a (N.of_nat i) x = Ok (upd a i x).
Proof. clear. intros A a i x H. unfold cset. destruct (N.ltb_spec (N.of_nat i) (N.of_nat (length a))); [|lia]. rewrite Nnat.Nat2N.id. apply lset_Ok. auto. Qed.
Lemma invert_ok : exists inv, invert_sa v = Ok inv /\ length inv = n /\ forall p, p < n -> nth (nth p l 0) inv 0 = p.
Proof using Hv Hperm.
  unfold invert_sa. destruct Hv as [Hz Hg]. rewrite Hz, len_l. rewrite len_l in Hg.
  assert (G : forall k, k <= n -> exists inv, foldM (fun inv i => do p <- fv_get v i; cset inv p i) (seq 0 k) (repeat 0 n) = Ok inv /\ length inv = n /\ forall p, p < k -> nth (nth p l 0) inv 0 = p).
  2: { destruct (G n) as (inv & E & L & V); [lia|]. exists inv. auto. }
  induction k as [|k IH]; intros H.
  - exists (repeat 0 n). split; [reflexivity|]. split; [apply repeat_length|]. intros; lia.
  - destruct IH as (inv & E & L & V); [lia|]. rewrite seq_S, foldM_app, E. cbn [bind foldM Nat.add]. rewrite Hg by lia. cbn [bind].
    rewrite cset_ok by (rewrite L; apply l_in; lia). cbn [bind]. eexists. split; [reflexivity|]. split; [rewrite upd_length; auto|].
    intros p Lp. rewrite nth_upd. destruct (Nat.eqb_spec (nth p l 0) (nth k l 0)) as [Q|Q].
    + apply l_inj in Q; try lia. subst p. cbn [andb]. rewrite L. destruct (Nat.ltb_spec (nth k l 0) n) as [|B]; auto. pose proof (l_in k). lia.
    + cbn [andb]. apply V. assert (p <> k) by congruence. lia.
Qed.
Hypothesis Hs : forall p q, p < q -> q < length l -> lex_lt (skipn (nth p l 0) s) (skipn (nth q l 0) s).
(** what the entry for rank p has to be *)
Definition entry (p : nat) : nat := if S p <? n then common_prefix (skipn (nth p l 0) s) (skipn (nth (S p) l 0) s) else 0.
Lemma sorted_pq : forall p q, p < q -> q < n -> lex_lt (skipn (nth p l 0) s) (skipn (nth q l 0) s).
Proof using Hperm Hs. intros p q H K. apply Hs; rewrite ?len_l; auto. Qed.
(** Kasai's observation *)
Lemma kasai : forall p q, p < n -> q < n -> nth q l 0 = S (nth p l 0) -> S q < n -> entry p - 1 <= entry q.
Proof using Hperm Hs.
  intros p q Hp Hq E Hq'. unfold entry at 1. destruct (Nat.ltb_spec (S p) n) as [Hp'|]; [|lia].
  set (i := nth p l 0) in *. set (r := nth (S p) l 0).
  assert (Li : i < n) by (apply l_in; auto). assert (Lr : r < n) by (apply l_in; auto).
  pose proof (sorted_pq p (S p) ltac:(lia) Hp') as LT. fold i r in LT.
  destruct (Nat.eq_dec (common_prefix (skipn i s) (skipn r s)) 0) as [Z|Z]; [rewrite Z; lia|].
  unfold n in Li, Lr. rewrite (skipn_S s i 0%N Li), (skipn_S s r 0%N Lr) in Z, LT |- *. cbn [common_prefix] in Z |- *.
  destruct (nth i s 0 =? nth r s 0)%N eqn:Q; [|lia]. apply N.eqb_eq in Q. cbn [lex_lt] in LT. destruct LT as [LT|[_ LT]]; [lia|].
  assert (Lr' : S r < n). { destruct (le_lt_dec n (S r)) as [B|]; auto. rewrite (skipn_past s (S r) B) in LT. destruct (skipn (S i) s); destruct LT. }
  destruct (l_surj (S r) Lr') as (t & Ht & Et).
  assert (QT : q < t). { destruct (lt_eq_lt_dec q t) as [[?|B]|B]; auto; exfalso.
    - subst t. rewrite Et in E. injection E as E. rewrite E in LT. apply (lex_lt_irrefl _ LT).
    - pose proof (sorted_pq t q B Hq) as C. rewrite Et, E in C. apply (lex_lt_irrefl _ (lex_lt_trans _ _ _ C LT)). }
  unfold entry. destruct (Nat.ltb_spec (S q) n); [|lia]. rewrite E.
  destruct (Nat.eq_dec t (S q)) as [->|NE]. { rewrite Et. lia. }
  pose proof (sorted_pq q (S q) ltac:(lia) Hq') as A. pose proof (sorted_pq (S q) t ltac:(lia) Ht) as B. rewrite E in A. rewrite Et in B.
  pose proof (common_mono _ _ _ A B). lia.
Qed.
Lemma lcp_loop : forall inv, length inv = n -> (forall p, p < n -> nth (nth p l 0) inv 0 = p) -> forall k, k <= n ->
  exists a prev, foldM (lcp_step s v inv) (seq 0 k) (repeat 0 n, 0) = Ok (a, prev) /\ length a = n /\ (forall i, i < k -> nth (nth i inv 0) a 0 = entry (nth i inv 0)) /\ prev = match k with 0 => 0 | S j => entry (nth j inv 0) end.
Proof using Hv Hperm Hs.
  intros inv L V. destruct Hv as [Hz Hg]. rewrite len_l in Hg. induction k as [|k IH]; intros H.
  - exists (repeat 0 n), 0. split; [reflexivity|]. split; [apply repeat_length|]. split; auto. intros; lia.
  - destruct IH as (a & prev & E & La & Va & Ep); [lia|]. rewrite seq_S, foldM_app, E. cbn [bind foldM Nat.add lcp_step].
    rewrite (lget_nth _ _ k 0) by lia. cbn [bind]. destruct (l_surj k) as (p & Hp & Lp); [lia|].
    assert (Ip : nth k inv 0 = p) by (rewrite <- Lp; apply V; auto). rewrite Ip, L.
    assert (X : (if p =? n - 1 then Ok 0 else do r <- fv_get v (p + 1); compare_lcp (S (length s)) s (k + (if 1 <? prev then prev - 1 else 0)) (N.to_nat r + (if 1 <? prev then prev - 1 else 0)) (if 1 <? prev then prev - 1 else 0)) = Ok (entry p)).
    { unfold entry. destruct (Nat.eqb_spec p (n - 1)) as [Q|Q]. { destruct (Nat.ltb_spec (S p) n); [lia|]. reflexivity. }
      destruct (Nat.ltb_spec (S p) n) as [Hp'|]; [|lia]. rewrite Hg by lia. cbn [bind]. rewrite Nnat.Nat2N.id.
      rewrite compare_ok by lia. f_equal. replace (p + 1) with (S p) by lia. rewrite Lp. symmetry. apply common_skip.
      destruct (Nat.ltb_spec 1 prev) as [B|]; [|lia]. rewrite Ep in *. destruct k as [|j]; [lia|].
      destruct (l_surj j) as (p0 & Hp0 & Lp0); [lia|]. assert (I0 : nth j inv 0 = p0) by (rewrite <- Lp0; apply V; auto). rewrite I0 in *.
      pose proof (kasai p0 p Hp0 Hp ltac:(lia) Hp') as K. unfold entry at 2 in K. destruct (Nat.ltb_spec (S p) n); [|lia]. rewrite Lp in K. exact K. }
    cbn zeta. rewrite X. cbn [bind]. rewrite lset_Ok by lia. cbn [bind]. exists (upd a p (entry p)), (entry p).
    split; [reflexivity|]. split; [rewrite upd_length; auto|]. split; [|cbv beta iota; try rewrite Ip; reflexivity].
    intros i Hi. rewrite nth_upd. destruct (Nat.eqb_spec (nth i inv 0) p) as [Q|Q].
    + rewrite Q. cbn [andb]. destruct (Nat.ltb_spec p (length a)); [reflexivity|lia].
    + cbn [andb]. apply Va. assert (i <> k) by congruence. lia.
Qed.
Lemma entry_le : forall p, entry p <= n.
Proof using. clear Hs. intros p. unfold entry. destruct (_ <? _); [|lia]. pose proof (common_le_l (skipn (nth p l 0) s) (skipn (nth (S p) l 0) s)) as H. rewrite skipn_length in H. unfold n. lia. Qed.
Theorem lcp_correct : s <> [] -> (N.of_nat (length s) < 2 ^ 31)%N -> exists w, build_lcp s v = Ok w /\ fv_size w = length s /\ forall p, p < length s -> fv_get w p = Ok (N.of_nat (entry p)).
Proof using Hv Hperm Hs.
  intros NE B. destruct invert_ok as (inv & E & L & V). destruct (lcp_loop inv L V n ltac:(lia)) as (a & prev & El & La & Va & _).
  unfold build_lcp. rewrite E. cbn [bind]. destruct Hv as [Hz _]. rewrite Hz, len_l, L, El. cbn [bind fst].
  assert (Ea : forall p, p < n -> nth p a 0 = entry p). { intros p Hp. pose proof (l_in p Hp) as Hi. specialize (Va _ Hi). rewrite (V p Hp) in Va. exact Va. }
  destruct (fv_of_list_stmt (map N.of_nat a)) as (w & Ew & Zw & Gw & _).
  { apply Forall_forall. intros x Hx. apply in_map_iff in Hx. destruct Hx as (y & <- & Hy). destruct (In_nth a y 0 Hy) as (p & Lp & Ep). rewrite La in Lp. rewrite Ea in Ep by auto.
    pose proof (entry_le p). fold n in B. change (2 ^ 31)%N with 2147483648%N in B. change (2 ^ 63)%N with 9223372036854775808%N. lia. }
  rewrite Ew. cbn [bind]. rewrite (lget_nth _ _ (n / 2) 0).
  2: { rewrite La. apply Nat.div_lt; [|lia]. unfold n. apply len_pos. exact NE. }
  cbn [bind]. exists w. split; [reflexivity|]. rewrite map_length, La in Zw. split; [exact Zw|]. intros p Hp. apply Gw.
  rewrite nth_error_map, (nth_error_nth' a 0) by (rewrite La; exact Hp). cbn [option_map]. rewrite Ea by exact Hp. reflexivity.
Qed.
End Lcp.

Theorem lcp_stmt : forall s v l, s <> [] -> (N.of_nat (length s) < 2 ^ 31)%N -> sorted_suffixes s l -> fv_list v = Ok (map N.of_nat l) ->
  exists w, build_lcp s v = Ok w /\ fv_list w = Ok (map (fun p => N.of_nat (if S p <? length s then common_prefix (skipn (nth p l 0) s) (skipn (nth (S p) l 0) s) else 0)) (seq 0 (length s))).
Proof.
  intros s v l NE B S F.
  assert (MM : forall (f : nat -> res N) k ys st, mapM f (seq st k) = Ok ys -> length ys = k /\ forall p, p < k -> f (st + p) = Ok (nth p ys 0%N)).
  { intros f. induction k as [|k IH]; intros ys st H; cbn [seq mapM] in H. { injection H as <-. split; auto. intros; lia. }
    apply bind_Ok_inv in H. destruct H as (y & Ey & H). apply bind_Ok_inv in H. destruct H as (zs & Ez & H). injection H as <-.
    destruct (IH _ _ Ez) as [L N]. split; [cbn [length]; lia|]. intros [|p] Hp; [rewrite Nat.add_0_r; exact Ey|]. cbn [nth]. rewrite <- N by lia. f_equal. lia. }
  assert (Hv : holds v l).
  { unfold fv_list in F. destruct (MM _ _ _ _ F) as [L N]. rewrite map_length in L. split; [auto|]. intros p Hp. specialize (N p ltac:(lia)). cbn [Nat.add] in N. rewrite N. f_equal. change 0%N with (N.of_nat 0). apply map_nth. }
  destruct (lcp_correct s v l Hv (proj1 S) (proj2 S) NE B) as (w & Ew & Zw & Gw). exists w. split; auto. unfold fv_list. rewrite Zw.
  assert (MO : forall (f : nat -> res N) g k st, (forall p, st <= p < st + k -> f p = Ok (g p)) -> mapM f (seq st k) = Ok (map g (seq st k))).
  { intros f g. induction k as [|k IH]; intros st H; cbn [seq mapM map]; [reflexivity|]. rewrite H by lia. cbn [bind]. rewrite IH; [reflexivity|]. intros p Hp. apply H. lia. }
  apply MO. intros p Hp. rewrite Gw by lia. reflexivity.
Qed.
