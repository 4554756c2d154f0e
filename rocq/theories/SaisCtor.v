(** The SuffixArray constructor on strings of bytes from 1 to 127. *)
From Coq Require Import List NArith ZArith Arith Bool Lia Permutation Sorted.
From Verif Require Import Base Spec5 Spec6 FitVectorModel FitVectorProof StreamModel StringStreamModel StringStreamProof SuffixModel LcpProof SaisRows SaisPut SaisInduce SaisKey SaisOrder SaisName SaisTotal SaisSort SaisPublic.
Import ListNotations.
Local Open Scope nat_scope.

(** ** The LCP array for any order *)
Section Lcp.
Variables (s : list N) (v : fitvec) (l : list nat).
Hypothesis Hv : holds v l.
Hypothesis Hperm : Permutation l (seq 0 (length s)).
Let n := length s.
Definition real (p : nat) : nat := if S p <? n then common_prefix (skipn (nth p l 0) s) (skipn (nth (S p) l 0) s) else 0.
Lemma common_skip_le : forall i r h, common_prefix (skipn i s) (skipn r s) <= h + common_prefix (skipn (i + h) s) (skipn (r + h) s).
Proof.
  intros i r h. destruct (le_lt_dec h (common_prefix (skipn i s) (skipn r s))) as [L|L]; [rewrite (common_skip s i r h L); lia|lia].
Qed.
Lemma loop_any : forall inv, length inv = n -> (forall p, p < n -> nth (nth p l 0) inv 0 = p) -> forall k, k <= n ->
  exists a prev, foldM (lcp_step s v inv) (seq 0 k) (repeat 0 n, 0) = Ok (a, prev) /\ length a = n /\ prev <= n /\ (forall i, i < n -> nth i a 0 <= n) /\ forall i, i < k -> real (nth i inv 0) <= nth (nth i inv 0) a 0.
Proof.
  intros inv L V. destruct Hv as [Hz Hg]. rewrite (len_l s l Hperm) in Hg. induction k as [|k IH]; intros H.
  - exists (repeat 0 n), 0. split; [reflexivity|]. split; [apply repeat_length|]. split; [lia|]. split; [|intros; lia]. intros i I. rewrite nth_repeat_lt by auto. lia.
  - destruct IH as (a & prev & E & La & Lp & Ba & Va); [lia|]. rewrite seq_S, foldM_app, E. cbn [bind foldM Nat.add lcp_step].
    rewrite (lget_nth _ _ k 0) by lia. cbn [bind]. destruct (l_surj s l Hperm k) as (p & Hp & Lk); [fold n; lia|]. fold n in Hp.
    assert (Ip : nth k inv 0 = p) by (rewrite <- Lk; apply V; auto). rewrite Ip, L. set (h := if 1 <? prev then prev - 1 else 0). assert (Hh : h <= n) by (unfold h; destruct (1 <? prev); lia).
    assert (X : exists x, (if p =? n - 1 then Ok 0 else do r <- fv_get v (p + 1); compare_lcp (S (length s)) s (k + h) (N.to_nat r + h) h) = Ok x /\ x <= n /\ real p <= x).
    { unfold real. destruct (Nat.eqb_spec p (n - 1)) as [Q|Q]. { exists 0. destruct (Nat.ltb_spec (S p) n); [lia|]. repeat split; lia. }
      destruct (Nat.ltb_spec (S p) n) as [Hp'|]; [|lia]. rewrite Hg by (fold n; lia). cbn [bind]. rewrite Nnat.Nat2N.id. rewrite compare_ok by lia. eexists. split; [reflexivity|]. replace (p + 1) with (S p) by lia. rewrite Lk. split; [|apply common_skip_le].
      pose proof (common_le_l (skipn (k + h) s) (skipn (nth (S p) l 0 + h) s)) as C. rewrite skipn_length in C. fold n in C. lia. }
    destruct X as (x & Ex & Lx & Rx). cbn zeta. fold h. rewrite Ex. cbn [bind]. rewrite lset_Ok by lia. cbn [bind]. exists (upd a p x), x.
    split; [reflexivity|]. split; [rewrite upd_length; auto|]. split; auto. split.
    + intros i I. rewrite nth_upd. destruct ((i =? p) && (p <? length a)); auto.
    + intros i I. rewrite nth_upd. destruct (Nat.eqb_spec (nth i inv 0) p) as [Q|Q].
      * rewrite Q. cbn [andb]. destruct (Nat.ltb_spec p (length a)); [auto|lia].
      * cbn [andb]. apply Va. assert (i <> k) by congruence. lia.
Qed.
Theorem lcp_any : s <> [] -> (N.of_nat (length s) < 2 ^ 31)%N -> exists w a, build_lcp s v = Ok w /\ fv_rep w (map N.of_nat a) true /\ length a = length s /\ forall p, p < length s -> real p <= nth p a 0 <= length s.
Proof.
  intros NE B. destruct (invert_ok s v l Hv Hperm) as (inv & E & L & V). destruct (loop_any inv L V n ltac:(lia)) as (a & prev & El & La & _ & Ba & Va).
  unfold build_lcp. rewrite E. cbn [bind]. destruct Hv as [Hz _]. rewrite Hz, (len_l s l Hperm), L. fold n. rewrite El. cbn [bind fst]. pose proof (len_pos _ s NE) as Ln. fold n in Ln.
  destruct (fv_of_list_ok (map N.of_nat a)) as (w & Ew & Rw & _).
  { apply Forall_forall. intros x Hx. apply in_map_iff in Hx. destruct Hx as (y & <- & Hy). destruct (In_nth a y 0 Hy) as (p & Lp & Ep). rewrite La in Lp. specialize (Ba p Lp). fold n in B.
    change (2 ^ 31)%N with 2147483648%N in B. change (2 ^ 63)%N with 9223372036854775808%N. lia. }
  { destruct a; [cbn [length] in La; lia|discriminate]. }
  rewrite Ew. cbn [bind]. rewrite (lget_nth _ _ (n / 2) 0). 2: { rewrite La. apply Nat.div_lt; lia. }
  cbn [bind]. exists w, a. split; auto. split; auto. split; auto. intros p Hp. fold n in Hp. split; [|fold n; apply Ba; auto]. pose proof (l_in s l Hperm p Hp) as Hi. fold n in Hi. specialize (Va _ Hi). rewrite (V p Hp) in Va. exact Va.
Qed.
End Lcp.

Lemma rep_list : forall v l g, fv_rep v l g -> fv_list v = Ok l.
Proof.
  intros v l g R. pose proof R as (_ & Hz & _). unfold fv_list. rewrite Hz.
  assert (MO : forall k, k <= length l -> mapM (fv_get v) (seq 0 k) = Ok (firstn k l)).
  { induction k as [|k IH]; intros H; [reflexivity|]. rewrite seq_S. cbn [Nat.add]. assert (MA : forall a b ya, mapM (fv_get v) a = Ok ya -> mapM (fv_get v) (a ++ b) = (do yb <- mapM (fv_get v) b; Ok (ya ++ yb))).
    { clear. induction a as [|x a IH]; intros b ya E; cbn [app mapM] in *. - injection E as <-. destruct (mapM (fv_get v) b); reflexivity.
      - apply bind_Ok_inv in E. destruct E as (y & Ey & E). apply bind_Ok_inv in E. destruct E as (ys & Eys & E). injection E as <-. rewrite Ey. cbn [bind]. rewrite (IH b ys Eys). destruct (mapM (fv_get v) b); reflexivity. }
    rewrite (MA _ [k] _ (IH ltac:(lia))). cbn [mapM]. rewrite (fv_get_rep v l g k R) by lia. cbn [bind]. f_equal.
    rewrite <- (firstn_skipn k l) at 3. clear -H. revert k H. induction l as [|x l IHl]; intros [|k] H; cbn [length] in H; try lia; [reflexivity|]. cbn [firstn skipn app nth]. f_equal. rewrite (IHl k) by lia. destruct (skipn k l); reflexivity. }
  rewrite (MO (length l) (le_n _)), firstn_all. reflexivity.
Qed.
Lemma rep_holds : forall v l g, fv_rep v (map N.of_nat l) g -> holds v l.
Proof.
  intros v l g R. pose proof R as (_ & Hz & _). rewrite map_length in Hz. split; auto. intros p P. rewrite (fv_get_rep v _ g p R) by (rewrite map_length; auto). f_equal. change 0%N with (N.of_nat 0). apply map_nth.
Qed.
Lemma sais_str_low : forall s, Forall (fun c => (0 < c < 128)%N) s -> sais_str s = s ++ [0%N].
Proof. intros s F. unfold sais_str. f_equal. induction F as [|x l Hx F IH]; [reflexivity|]. cbn [map]. rewrite IH. destruct (N.ltb_spec x 128); [reflexivity|lia]. Qed.

Section Ctor.
Variable s : list N.
Hypothesis NE : s <> [].
Hypothesis F : Forall (fun c => (0 < c < 128)%N) s.
Hypothesis B : (N.of_nat (length s) < 2 ^ 31)%N.
Let str := s ++ [0%N].
Lemma pos_s : positive s.
Proof. eapply Forall_impl; [|exact F]. intros c Hc; cbv beta in *; lia. Qed.
Lemma val_s : valid str 255.
Proof. apply valid_of; auto using pos_s. eapply Forall_impl; [|exact F]. intros c Hc; cbv beta in *; lia. Qed.
Lemma len_str : length str = S (length s).
Proof. unfold str. rewrite app_length. cbn [length]. lia. Qed.
(** what is stored *)
Lemma ctor : forall U, sais (S (length s)) str 255 = Ok (map Some U) -> Permutation U (seq 0 (S (length s))) -> hd 0 U = length s ->
  exists sa lcp a, suffix_array s = Ok (sa, lcp) /\ Permutation (tl U) (seq 0 (length s)) /\ fv_rep sa (map N.of_nat (tl U)) true /\ build_lcp s sa = Ok lcp /\ fv_rep lcp (map N.of_nat a) true /\ length a = length s /\
    forall p, p < length s -> real s (tl U) p <= nth p a 0 <= length s.
Proof.
  intros U E P H. pose proof (len_pos _ s NE) as Ln. destruct U as [|u U]; [apply Permutation_length in P; rewrite seq_length in P; discriminate|]. cbn [hd tl] in *. subst u.
  assert (PU : Permutation U (seq 0 (length s))). { apply (Permutation_cons_inv (a := length s)). rewrite P, seq_S. cbn [Nat.add]. symmetry. apply Permutation_cons_append. }
  unfold suffix_array, build_sa. rewrite sais_str_low by auto. fold str. rewrite E. cbn [bind].
  assert (MS : forall l, mapM (fun x : option nat => match x with Some i => Ok (N.of_nat i) | None => Ok (2 ^ 64 - 1)%N end) (map Some l) = Ok (map N.of_nat l)) by (induction l as [|x l IH]; [reflexivity|]; cbn [map mapM]; rewrite IH; reflexivity).
  rewrite MS. cbn [bind map tl]. destruct (fv_of_list_ok (map N.of_nat U)) as (sa & Es & Rs & _).
  { apply Forall_forall. intros x Hx. apply in_map_iff in Hx. destruct Hx as (y & <- & Hy). apply (Permutation_in _ PU) in Hy. apply in_seq in Hy. change (2 ^ 31)%N with 2147483648%N in B. change (2 ^ 63)%N with 9223372036854775808%N. lia. }
  { apply Permutation_length in PU. rewrite seq_length in PU. destruct U; [cbn [length] in PU; lia|discriminate]. }
  rewrite Es. cbn [bind]. destruct (lcp_any s sa U (rep_holds _ _ _ Rs) PU NE B) as (w & a & Ew & Rw & La & Va). rewrite Ew. cbn [bind]. exists sa, w, a. auto 10.
Qed.
Lemma hd_min : forall (K : nat -> list N) U, Permutation U (seq 0 (S (length s))) -> StronglySorted (fun p q => lex_lt (K p) (K q)) U -> (forall q, q < length s -> lex_lt (K (length s)) (K q)) -> hd 0 U = length s.
Proof.
  intros K U P SS H. assert (I : In (length s) U) by (apply (Permutation_in _ (Permutation_sym P)); apply in_seq; lia). destruct SS as [|u U SS FF]; [destruct I|]. cbn [hd]. destruct I as [->|I]; auto. exfalso.
  rewrite Forall_forall in FF. assert (Iu : In u (seq 0 (S (length s)))) by (apply (Permutation_in _ P); left; auto). apply in_seq in Iu. destruct (Nat.eq_dec u (length s)) as [->|]; [exact (lex_lt_irrefl _ (FF _ I))|]. exact (lex_lt_asym _ _ (FF _ I) (H u ltac:(lia))).
Qed.
Lemma end_first : forall q, q < length s -> ch str (length s) < ch str q.
Proof. intros q Q. pose proof (ch_last str 255 val_s) as A. pose proof (ch_pos str 255 val_s q) as C. rewrite len_str in A, C. replace (S (length s) - 1) with (length s) in A, C by lia. specialize (C Q). lia. Qed.

Theorem ctor_ok : exists sa lcp l a, suffix_array s = Ok (sa, lcp) /\ fv_list sa = Ok (map N.of_nat l) /\ Permutation l (seq 0 (length s)) /\
  (forall i j, i < j -> j < length l -> lex_lt (skipn (nth i l 0) s) (skipn (nth j l 0) s) \/ same_stretch s (nth i l 0) (nth j l 0)) /\
  fv_list lcp = Ok (map N.of_nat a) /\ length a = length s /\ forall p, p < length s -> (if S p <? length s then common_prefix (skipn (nth p l 0) s) (skipn (nth (S p) l 0) s) else 0) <= nth p a 0 <= length s.
Proof.
  destruct (sais_ok (S (length s)) str 255 val_s) as (U & rk & E & P & SS); [rewrite len_str; auto|]. rewrite len_str in P.
  assert (H : hd 0 U = length s). { apply (hd_min (key str rk true)); auto. intros q Q. apply (key_head str); [rewrite len_str; lia|rewrite len_str; lia|apply end_first; auto]. }
  destruct (ctor U E P H) as (sa & lcp & a & C1 & C2 & C3 & _ & C4 & C5 & C6). exists sa, lcp, (tl U), a. split; auto. split; [apply (rep_list _ _ _ C3)|]. split; auto. split; [|split; [apply (rep_list _ _ _ C4)|split; auto]].
  intros i j IJ J. assert (LP : length (tl U) = length s) by (rewrite (Permutation_length C2), seq_length; auto).
  assert (X : forall i, i < length (tl U) -> nth i (tl U) 0 < length s). { intros t T. assert (I : In (nth t (tl U) 0) (tl U)) by (apply nth_In; auto). apply (Permutation_in _ C2) in I. apply in_seq in I. lia. }
  set (p := nth i (tl U) 0). set (q := nth j (tl U) 0). assert (Lp : p < length s) by (apply X; lia). assert (Lq : q < length s) by (apply X; lia).
  assert (K : lex_lt (key str rk true p) (key str rk true q)). { assert (S1 : StronglySorted (fun p q => lex_lt (key str rk true p) (key str rk true q)) (tl U)) by (destruct SS; [constructor|auto]). apply (ss_nth _ _ _ 0 S1 i j IJ J). }
  apply (key_weak str rk (S (length s))) in K; [|rewrite len_str; lia]. destruct K as [K|K].
  - left. apply (suf_iff s pos_s); try lia. apply (ekey_suf str 255 val_s (S (length s)) true); auto; rewrite len_str; lia.
  - right. apply (key_stretch s 255 pos_s val_s); auto; try lia. intros PQ. assert (ND : NoDup (tl U)) by (apply (Permutation_NoDup (Permutation_sym C2)), seq_NoDup). rewrite (NoDup_nth _ 0) in ND. unfold p, q in PQ. apply ND in PQ; lia.
Qed.
Lemma sorted_tl : forall U, Permutation U (seq 0 (S (length s))) -> hd 0 U = length s -> Permutation (tl U) (seq 0 (length s)) ->
  StronglySorted (fun p q => lex_lt (skipn p str) (skipn q str)) U <-> sorted_suffixes s (tl U).
Proof.
  intros U P H PT. destruct U as [|u U]; [apply Permutation_length in P; rewrite seq_length in P; discriminate|]. cbn [hd tl] in *. subst u.
  assert (IU : forall p, In p U -> p < length s) by (intros p I; apply (Permutation_in _ PT) in I; apply in_seq in I; lia). split.
  - intros SS. inversion SS as [|? ? S1 F1]; subst. split; auto. intros p q PQ Q. apply (suf_iff s pos_s); try (apply Nat.lt_le_incl, IU, nth_In; lia). apply (ss_nth _ _ _ 0 S1); auto.
  - intros [_ SS]. constructor.
    + assert (G : forall l, (forall p, In p l -> p < length s) -> (forall p q, p < q -> q < length l -> lex_lt (skipn (nth p l 0) s) (skipn (nth q l 0) s)) -> StronglySorted (fun p q => lex_lt (skipn p str) (skipn q str)) l).
      { induction l as [|x l IH]; intros I O; constructor. - apply IH; [intros; apply I; right; auto|]. intros p q PQ Q. apply (O (S p) (S q)); cbn [length]; lia.
        - apply Forall_forall. intros y Y. destruct (In_nth _ _ 0 Y) as (q & Q & <-). apply (suf_iff s pos_s); try (apply Nat.lt_le_incl, I; first [left; reflexivity | right; apply nth_In; auto]). apply (O 0 (S q)); cbn [length]; lia. }
      apply G; auto.
    + apply Forall_forall. intros y Y. apply (suf_head str); try (rewrite len_str; specialize (IU y Y); lia). apply end_first. auto.
Qed.
Theorem ctor_sorted : sortable s -> exists sa lcp l, suffix_array s = Ok (sa, lcp) /\ fv_list sa = Ok (map N.of_nat l) /\ sorted_suffixes s l /\
  fv_list lcp = Ok (map (fun p => N.of_nat (if S p <? length s then common_prefix (skipn (nth p l 0) s) (skipn (nth (S p) l 0) s) else 0)) (seq 0 (length s))).
Proof.
  intros SO. destruct (sais_sortable s SO (S (length s)) 255 NE pos_s val_s ltac:(lia)) as (U & E & P & SS). fold str in E, SS.
  assert (H : hd 0 U = length s). { apply (hd_min (fun p => skipn p str)); auto. intros q Q. apply (suf_head str); [rewrite len_str; lia|rewrite len_str; lia|apply end_first; auto]. }
  destruct (ctor U E P H) as (sa & lcp & a & C1 & C2 & C3 & C4 & _). assert (SO' : sorted_suffixes s (tl U)) by (apply sorted_tl; auto). pose proof (rep_list _ _ _ C3) as RL.
  destruct (lcp_stmt s sa (tl U) NE B SO' RL) as (w & Ew & Fw). rewrite Ew in C4. injection C4 as <-. exists sa, w, (tl U). auto.
Qed.
(** when no two valleys have equal stretches *)
Theorem ctor_iff : (forall p q, valley s p -> valley s q -> same_stretch s p q -> p = q) -> exists sa lcp l, suffix_array s = Ok (sa, lcp) /\ fv_list sa = Ok (map N.of_nat l) /\
  (sorted_suffixes s l <-> forall p q, p < q -> q < length s -> same_stretch s p q -> lex_lt (skipn p s) (skipn q s)).
Proof.
  intros D. assert (D1 := proj1 (distinct_iff s 255 pos_s val_s) D). destruct (sais_first str 255 val_s (length s) D1) as (U & E & P & SS). rewrite len_str in P.
  assert (H : hd 0 U = length s). { apply (hd_min (key str N.of_nat true)); auto. intros q Q. apply (key_head str); [rewrite len_str; lia|rewrite len_str; lia|apply end_first; auto]. }
  destruct (ctor U E P H) as (sa & lcp & a & C1 & C2 & C3 & _). exists sa, lcp, (tl U). split; auto. split; [apply (rep_list _ _ _ C3)|]. rewrite <- (sorted_tl U P H C2). apply (first_sorted s 255 pos_s val_s); auto. change (length (s ++ [0%N])) with (length str). rewrite len_str. auto.
Qed.
Theorem ctor_stream : exists a, suffix_array s = Ok a /\ forall rest, sufarr_read (sufarr_write s a ++ rest) = Ok ((s, a), rest).
Proof.
  destruct (sais_ok (S (length s)) str 255 val_s) as (U & rk & E & P & SS); [rewrite len_str; auto|]. rewrite len_str in P.
  assert (H : hd 0 U = length s). { apply (hd_min (key str rk true)); auto. intros q Q. apply (key_head str); [rewrite len_str; lia|rewrite len_str; lia|apply end_first; auto]. }
  destruct (ctor U E P H) as (sa & lcp & a & C1 & C2 & C3 & _ & C4 & C5 & C6). exists (sa, lcp). split; auto. intros rest. assert (L : length (tl U) = length s) by (rewrite (Permutation_length C2), seq_length; auto).
  change (2 ^ 31)%N with 2147483648%N in B. destruct (rep_fits _ _ _ C3) as [A1 A2]; [rewrite map_length, L; change (2 ^ 32)%N with 4294967296%N; lia|]. destruct (rep_fits _ _ _ C4) as [B1 B2]; [rewrite map_length, C5; change (2 ^ 32)%N with 4294967296%N; lia|].
  apply (rt_sufarr s (sa, lcp)); auto. unfold size_fits. change (2 ^ 64)%N with 18446744073709551616%N. lia.
Qed.
End Ctor.
