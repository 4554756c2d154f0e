(** The space of a DacVector, and how near the automatic split comes to the best one. *)
From Coq Require Import List NArith Arith Bool Lia.
From Verif Require Import Base Spec CalcModel CalcProof CalcProof2 BitVectorModel BitVectorProof BitVectorProof2 FitVectorModel FitVectorProof SuccinctModel SuccinctProof DacModel DacProof DacExact SplitSpec SplitProof Spec31 DacSpaceModel.
Import ListNotations.
Ltac Zify.zify_post_hook ::= idtac.
Local Open Scope nat_scope.

Lemma gws_words : forall n, 1 <= n -> N.of_nat (get_word_size n) = words_for (N.of_nat n).
Proof.
  intros n H. unfold get_word_size, words_for. destruct (Nat.eqb_spec n 0); [lia|]. rewrite Nat2N.inj_add, Nat2N.inj_div, Nat2N.inj_sub. change (N.of_nat 64) with 64%N. change (N.of_nat 1) with 1%N.
  replace (N.of_nat n + 63)%N with (N.of_nat n - 1 + 1 * 64)%N by lia. rewrite N.div_add by lia. lia.
Qed.

Lemma fws_words : forall n w, 1 <= w -> N.of_nat (fv_word_size n w) = words_for (N.of_nat n * N.of_nat w).
Proof.
  intros n w H. unfold fv_word_size. destruct (Nat.eqb_spec n 0) as [->|]; [reflexivity|]. destruct (Nat.eqb_spec w 0); [lia|]. cbn [orb].
  rewrite <- Nat2N.inj_mul, <- gws_words by nia. unfold get_word_size. destruct (Nat.eqb_spec (n * w) 0); [nia|]. reflexivity.
Qed.

Lemma path_index : forall p b, sbv_ok p b -> sb_tips p = [] -> b <> [] -> N.of_nat (path_words p) = index_words (N.of_nat (length b)).
Proof.
  intros p b ((_ & Lw & _) & Lb & _) T Hb. unfold path_words, index_words. rewrite Lw, Lb, T. cbn [length].
  assert (1 <= length b) by (destruct b; [congruence|simpl; lia]). rewrite <- gws_words by auto.
  rewrite Nat.add_0_r, Nat2N.inj_add, Nat2N.inj_mul, Nat2N.inj_add, Nat2N.inj_div. change (N.of_nat 512) with 512%N. change (N.of_nat 2) with 2%N. change (N.of_nat 1) with 1%N. lia.
Qed.

Lemma hi_hi : forall a b x, hi b (hi a x) = hi (a + b) x.
Proof. intros. unfold hi. rewrite N.shiftr_shiftr. f_equal. lia. Qed.

Lemma pos_hi : forall t x, 1 <= t -> pos (hi t x) = (t <? bits_needed x).
Proof.
  intros t x H. unfold pos, hi, bits_needed. rewrite N.shiftr_div_pow2. destruct (N.eqb_spec x 0) as [->|Hx].
  - rewrite N.div_0_l by (apply N.pow_nonzero; lia). symmetry. apply Nat.ltb_ge. lia.
  - destruct (N.log2_spec x ltac:(lia)) as (A & B). destruct (Nat.ltb_spec t (S (N.to_nat (N.log2 x)))) as [L|L].
    + apply N.ltb_lt. apply N.div_str_pos. split; [apply N.neq_0_lt_0, N.pow_nonzero; lia|]. etransitivity; [|exact A]. apply N.pow_le_mono_r; lia.
    + apply N.ltb_ge. rewrite N.div_small; [lia|]. eapply N.lt_le_trans; [exact B|]. apply N.pow_le_mono_r; lia.
Qed.

Lemma count_map {A B} : forall (f : A -> B) p l, count_if p (map f l) = count_if (fun x => p (f x)) l.
Proof. unfold count_if. induction l as [|x l IH]; simpl; auto. destruct (p (f x)); simpl; auto. Qed.
Lemma count_ext {A} : forall (p q : A -> bool) l, (forall x, p x = q x) -> count_if p l = count_if q l.
Proof. intros. unfold count_if. induction l as [|x l IH]; simpl; auto. rewrite H. destruct (q x); simpl; auto. Qed.
Lemma count_filter {A} : forall (p q : A -> bool) l, (forall x, p x = true -> q x = true) -> count_if p (filter q l) = count_if p l.
Proof.
  intros p q l H. unfold count_if. induction l as [|x l IH]; simpl; auto. destruct (q x) eqn:E; simpl; [destruct (p x); simpl; auto|].
  destruct (p x) eqn:P; auto. apply H in P. congruence.
Qed.

Lemma pos_hi_pos : forall s x, pos (hi s x) = true -> pos x = true.
Proof.
  intros s x H. unfold pos in *. apply N.ltb_lt in H. apply N.ltb_lt. destruct (N.eq_dec x 0) as [->|]; [|lia]. unfold hi in H. rewrite N.shiftr_0_l in H. lia.
Qed.

(** [m] holds what is left of the values of [l] above bit [t], zeros included *)
Definition above (l : list N) (t : nat) (m : list N) : Prop := forall s, N.of_nat (count_if (fun x => pos (hi s x)) m) = wider l (t + s).

Lemma above_start : forall l t, 1 <= t -> above l t (map (hi t) l).
Proof.
  intros l t H s. rewrite count_map. unfold wider. f_equal. apply count_ext. intros x. rewrite hi_hi. apply pos_hi. lia.
Qed.
Lemma above_next : forall l t u m, above l t m -> above l (t + u) (map (hi u) (filter pos m)).
Proof.
  intros l t u m A s. rewrite count_map, count_filter by (intros x H; rewrite hi_hi in H; eapply pos_hi_pos; eassumption).
  rewrite (count_ext _ (fun x => pos (hi (u + s) x))) by (intros; now rewrite hi_hi). rewrite A. f_equal. lia.
Qed.
Lemma above_len : forall l t m, above l t m -> N.of_nat (length (filter pos m)) = wider l t.
Proof.
  intros l t m A. specialize (A 0). rewrite Nat.add_0_r in A. rewrite <- A. reflexivity.
Qed.

Lemma wider_pos : forall l t, t < max_bits l -> (1 <= wider l t)%N.
Proof.
  intros l t. unfold wider, count_if, max_bits. induction l as [|v l IH]; cbn [map fold_right filter]; [lia|]. intros H.
  destruct (Nat.ltb_spec t (bits_needed v)) as [L|L]; cbn [length]; [lia|]. apply IH. lia.
Qed.
Lemma wider_0 : forall l, wider l 0 = N.of_nat (length l).
Proof.
  intros l. unfold wider, count_if. f_equal. induction l as [|v l IH]; simpl; auto.
  assert (E : (0 <? bits_needed v) = true) by (apply Nat.ltb_lt; unfold bits_needed; destruct (N.eqb v 0); lia). rewrite E. simpl. now rewrite IH.
Qed.

Fixpoint starts (t : nat) (ws : list nat) : list nat := match ws with [] => [] | w :: ws' => t :: starts (t + w) ws' end.

Lemma deep_words : forall us Ls ps m l n t, deep_ok us Ls ps m -> length Ls = length us -> length ps = length us ->
  Forall (fun p => sb_tips p = []) ps -> above l t m -> Forall (fun u => 1 <= u) us ->
  (forall k, k < length us -> t + list_sum_nat (firstn k us) < max_bits l) -> N.of_nat (length m) = n -> (us <> [] -> 1 <= n)%N ->
  (N.of_nat (list_sum (map (fun L => length (fv_words L)) Ls)) + N.of_nat (list_sum (map path_words ps)) =
    match us with [] => 0 | _ :: _ => index_words n + level_words l t us end)%N /\
  map (fun L => N.of_nat (fv_size L)) Ls = map (wider l) (starts t us).
Proof.
  induction us as [|u us IH]; intros Ls ps m l n t D L1 L2 T A P H Lm Pn.
  - destruct Ls, ps; simpl in *; try lia. auto.
  - destruct Ls as [|L Ls], ps as [|p ps]; simpl in L1, L2; try lia. cbn [deep_ok] in D. destruct D as (O & (_ & Z & W & _) & Wu & D).
    inversion T as [|? ? T1 T2]; subst. inversion P as [|? ? P1 P2]; subst.
    assert (Hm : m <> []) by (intros ->; specialize (Pn ltac:(discriminate)); cbn [length] in Pn; lia).
    pose proof (path_index p _ O T1 ltac:(destruct m; [congruence|discriminate])) as I. rewrite map_length in I.
    rewrite map_length in W, Z. pose proof (above_len _ _ _ A) as F. pose proof (fws_words (length (filter pos m)) (fv_width L) P1) as V. rewrite <- W, F in V.
    destruct (IH Ls ps _ l (wider l t) (t + fv_width L) D ltac:(lia) ltac:(lia) T2 (above_next _ _ _ _ A) P2) as (E & C).
    { intros k Hk. specialize (H (S k) ltac:(simpl; lia)). cbn [firstn list_sum_nat fold_right] in H. fold (list_sum_nat (firstn k us)) in H. lia. }
    { now rewrite map_length. }
    { intros Hu. apply wider_pos. specialize (H 0 ltac:(simpl; lia)). simpl in H. lia. }
    split.
    + cbn [map list_sum fold_right level_words]. fold (list_sum (map (fun L => length (fv_words L)) Ls)). fold (list_sum (map path_words ps)). rewrite !Nat2N.inj_add, I, V. lia.
    + cbn [map starts]. rewrite C, Z, F. reflexivity.
Qed.

Lemma mapM_tips : forall ps qs, mapM (sb_build false) ps = Ok qs -> Forall (fun p => sb_tips p = []) qs.
Proof.
  induction ps as [|p ps IH]; intros qs E; cbn [mapM] in E; [injection E as <-; constructor|].
  apply bind_Ok_inv in E. destruct E as (q & Eq & E). apply bind_Ok_inv in E. destruct E as (qs' & E1 & E2). injection E2 as <-. constructor; auto.
  unfold sb_build in Eq. destruct (bv_size p =? 0); [injection Eq as <-; reflexivity|]. apply bind_Ok_inv in Eq. destruct Eq as (b & _ & Eq). cbn [bind] in Eq. injection Eq as <-. reflexivity.
Qed.

Lemma build_tips_none : forall units l d, dac_build units l = Ok d -> Forall (fun p => sb_tips p = []) (dac_paths d).
Proof.
  intros units l d E. unfold dac_build in E. destruct units as [|u us]; [discriminate|].
  apply bind_Ok_inv in E. destruct E as (cf & _ & E). apply bind_Ok_inv in E. destruct E as (x & _ & E). apply bind_Ok_inv in E. destruct E as (st & _ & E).
  apply bind_Ok_inv in E. destruct E as (ps & Ep & E). injection E as <-. cbn [dac_paths]. eapply mapM_tips; eassumption.
Qed.

Lemma build_words : forall units l, Forall (fun v => (v < 2 ^ 63)%N) l -> units <> [] -> Forall (fun u => 1 <= u <= 63) units -> starts_below units (max_bits l) ->
  exists d, dac_build units l = Ok d /\ N.of_nat (dac_words d) = level_words l 0 units /\ map N.of_nat (dac_counts d) = map (wider l) (starts 0 units) /\ length (dac_units d) = length units.
Proof.
  intros units l F Hn Fu Hp. destruct (build_ok units l F Hn Fu Hp) as (d & E & (_ & Eu & O)). exists d. split; auto.
  pose proof (build_tips_none _ _ _ E) as T. destruct units as [|u0 us]; [congruence|]. unfold dac_words, dac_counts. destruct (dac_layers d) as [|L0 Ls]; [destruct O|].
  destruct O as ((_ & Z & W & _) & Wu & D & L1 & L2). rewrite map_length in Z, W. inversion Fu as [|? ? F0 F1].
  destruct (deep_words us Ls (dac_paths d) _ l (N.of_nat (length l)) u0 D L2 L1 T (above_start l u0 ltac:(lia))) as (Ew & Ec).
  - eapply Forall_impl; [|exact F1]. cbn beta. intros; lia.
  - intros k Hk. specialize (Hp (S k) ltac:(simpl; lia)). cbn [firstn list_sum_nat fold_right] in Hp. exact Hp.
  - now rewrite map_length.
  - intros _. rewrite <- wider_0. apply wider_pos. specialize (Hp 0 ltac:(simpl; lia)). simpl in Hp. lia.
  - split; [|split; [|now rewrite Eu]].
    + cbn [map list_sum fold_right]. fold (list_sum (map (fun L => length (fv_words L)) Ls)). rewrite !Nat2N.inj_add, W, Wu, fws_words by lia.
      cbn [level_words]. rewrite wider_0. cbn [Nat.add]. rewrite <- N.add_assoc, Ew. reflexivity.
    + cbn [map starts Nat.add]. rewrite map_map, Ec, Z, wider_0. reflexivity.
Qed.

Lemma removelast_starts : forall units mb, units <> [] -> list_sum_nat (removelast units) < mb -> starts_below units mb.
Proof.
  intros units mb Hn Hr k Hk. rewrite (app_removelast_last 0 Hn). rewrite (app_removelast_last 0 Hn), app_length in Hk. simpl in Hk.
  rewrite firstn_app. replace (k - length (removelast units)) with 0 by lia. cbn [firstn]. rewrite app_nil_r. eapply Nat.le_lt_trans; [apply firstn_sum_le|exact Hr].
Qed.

Theorem dac_space : forall units l d, l <> [] -> units <> [] -> dac_of_list l units = Ok d ->
  N.of_nat (dac_words d) = level_words l 0 units /\ map N.of_nat (dac_counts d) = map (wider l) (starts 0 units).
Proof.
  intros units l d Hl Hu E. destruct (proj1 (dac_defined units l Hl Hu) (ex_intro _ d E)) as (F & Fu & Hr).
  destruct (build_words units l F Hu Fu (removelast_starts _ _ Hu Hr)) as (d' & E' & A & B & _).
  unfold dac_of_list, dac_of_list_gen in E. destruct l; [congruence|]. destruct units; [congruence|]. cbn [bind] in E. rewrite E in E'. injection E' as <-. auto.
Qed.

(** the estimate of the split and the real size *)
Lemma words_for_bounds : forall n, (n <= 64 * words_for n <= n + 63)%N.
Proof. intros n. unfold words_for. pose proof (N.div_mod (n + 63) 64 ltac:(lia)). pose proof (N.mod_lt (n + 63) 64 ltac:(lia)). lia. Qed.

Lemma index_bounds : forall n, (rank_overhead n <= 64 * index_words n + 191 /\ 64 * index_words n <= rank_overhead n)%N.
Proof.
  intros n. unfold index_words, rank_overhead, words_for.
  pose proof (N.div_mod (n + 63) 64 ltac:(lia)) as A1. pose proof (N.mod_lt (n + 63) 64 ltac:(lia)) as A2.
  pose proof (N.div_mod n 512 ltac:(lia)) as B1. pose proof (N.mod_lt n 512 ltac:(lia)) as B2.
  pose proof (N.div_mod n 4 ltac:(lia)) as C1. pose proof (N.mod_lt n 4 ltac:(lia)) as C2.
  set (a := ((n + 63) / 64)%N) in *. set (b := (n / 512)%N) in *. set (c := (n / 4)%N) in *.
  set (a' := ((n + 63) mod 64)%N) in *. set (b' := (n mod 512)%N) in *. set (c' := (n mod 4)%N) in *. clearbody a b c a' b' c'. lia.
Qed.

Lemma level_bounds : forall l ws t, ws <> [] ->
  (split_cost l t ws <= 64 * level_words l t ws + 191 * N.of_nat (length ws - 1) /\ 64 * level_words l t ws <= split_cost l t ws + 63 * N.of_nat (length ws))%N.
Proof.
  intros l. induction ws as [|w ws IH]; intros t H; [congruence|]. cbn [split_cost level_words length]. pose proof (words_for_bounds (wider l t * N.of_nat w)) as W.
  destruct ws as [|w' ws]; [cbn [length]; lia|]. specialize (IH (t + w) ltac:(discriminate)). pose proof (index_bounds (wider l t)) as I.
  set (x := level_words l (t + w) (w' :: ws)) in *. set (y := split_cost l (t + w) (w' :: ws)) in *. clearbody x y. cbn [length] in *. lia.
Qed.

(** widths beyond the widest value only cost more *)
Fixpoint trim (n : nat) (ws : list nat) : list nat :=
  match ws with [] => [] | w :: ws' => match ws' with [] => [n] | _ :: _ => w :: trim (n - w) ws' end end.
Lemma cost_cons : forall l t w a b, split_cost l t (w :: a :: b) = (wider l t * N.of_nat w + (rank_overhead (wider l t) + split_cost l (t + w) (a :: b)))%N.
Proof. reflexivity. Qed.
Lemma trim_parts : forall ws n, ws <> [] -> Forall (fun w => 1 <= w) ws -> n <= list_sum_nat ws -> list_sum_nat (removelast ws) < n ->
  parts_of n (trim n ws) /\ length (trim n ws) = length ws /\ forall l t, (split_cost l t (trim n ws) <= split_cost l t ws)%N.
Proof.
  induction ws as [|w ws IH]; intros n H P S R; [congruence|]. inversion P as [|? ? P1 P2]; subst. destruct ws as [|w' ws].
  - cbn [trim]. cbn [removelast list_sum_nat fold_right] in *. split; [|split; [reflexivity|]].
    + split; [repeat constructor; lia|]. cbn [list_sum_nat fold_right]. lia.
    + intros l t. cbn [split_cost]. rewrite !N.add_0_r. apply N.mul_le_mono_l. lia.
  - change (trim n (w :: w' :: ws)) with (w :: trim (n - w) (w' :: ws)). change (removelast (w :: w' :: ws)) with (w :: removelast (w' :: ws)) in R.
    rewrite !sum_cons in *. destruct (IH (n - w) ltac:(discriminate) P2 ltac:(rewrite ?sum_cons in *; lia) ltac:(lia)) as ((A1 & A2) & B & C).
    split; [split; [constructor; auto|rewrite sum_cons; lia]|]. split; [cbn [length] in *; lia|]. intros l t. specialize (C l (t + w)).
    cbn [length] in B. destruct (trim (n - w) (w' :: ws)) as [|a b]; [discriminate|]. rewrite !cost_cons. lia.
Qed.

Theorem dac_auto_space : forall l d, l <> [] -> Forall (fun v => (v < 2 ^ 63)%N) l -> (N.of_nat (length l) < 2 ^ 57)%N -> dac_of_list_tolerant l [] = Ok d ->
  N.of_nat (dac_words d) = level_words l 0 (dac_units d).
Proof.
  intros l d Hl F Hn E. destruct (split_positions_tolerant_ok l 8 Hl F Hn ltac:(lia)) as (r & Er & L & P & S).
  destruct (tolerant_widths l r F ltac:(lia) P S) as (W1 & W2 & W3 & W4). destruct (build_words r l F W1 W2 W4) as (d' & Ed & A & _ & _).
  unfold dac_of_list_tolerant, dac_of_list_gen in E. destruct l as [|a l']; [congruence|]. rewrite Er in E. cbn [bind] in E. rewrite E in Ed. injection Ed as <-.
  rewrite A. f_equal. destruct (build_ok r (a :: l') F W1 W2 W4) as (d' & E' & (_ & U & _)). congruence.
Qed.

Theorem dac_auto_near_best : forall l, l <> [] -> Forall (fun v => (v < 2 ^ 63)%N) l -> (N.of_nat (length l) < 2 ^ 57)%N ->
  (forall best, best_split l best -> length best <= 8) ->
  exists d, dac_of_list_tolerant l [] = Ok d /\
  forall units d', units <> [] -> max_bits l <= list_sum_nat units -> dac_of_list l units = Ok d' ->
   (64 * N.of_nat (dac_words d) <= 64 * N.of_nat (dac_words d') + 63 * N.of_nat (length (dac_units d)) + 191 * N.of_nat (length units - 1))%N.
Proof.
  intros l Hl F Hn U. destruct (split_best l 8 Hl F Hn ltac:(lia)) as (best & r & Bb & Er & Eq & _). specialize (Eq (U _ Bb)). subst r.
  destruct (dac_tolerant_reads l Hl F Hn) as (d & Ed & _). exists d. split; auto. intros units d' Hu Hs E'.
  pose proof (dac_auto_space l d Hl F Hn Ed) as A. destruct (dac_space units l d' Hl Hu E') as (A' & _).
  destruct (proj1 (dac_defined units l Hl Hu) (ex_intro _ d' E')) as (_ & Fu & Hr).
  assert (Ud : dac_units d = best).
  { destruct Bb as ((P & S) & _). assert (Lb : 1 <= length best). { destruct best; [|simpl; lia]. exfalso. unfold list_sum_nat in S. cbn in S. pose proof (wider_0 l). assert (1 <= max_bits l) by (destruct l as [|v ?]; [congruence|]; cbn [max_bits map fold_right]; unfold max_bits; cbn [map fold_right]; unfold bits_needed; destruct (N.eqb v 0); lia). lia. }
    destruct (tolerant_widths l best F Lb P S) as (W1 & W2 & _ & W4). destruct (build_ok best l F W1 W2 W4) as (d2 & E2 & (_ & U2 & _)).
    unfold dac_of_list_tolerant, dac_of_list_gen in Ed. destruct l; [congruence|]. rewrite Er in Ed. cbn [bind] in Ed. congruence. }
  rewrite Ud in *.
  destruct (trim_parts units (max_bits l) Hu ltac:(eapply Forall_impl; [|exact Fu]; cbn beta; intros; lia) Hs Hr) as (P & Lt & C).
  destruct Bb as ((Pb & Sb) & Bb). specialize (Bb _ P). specialize (C l 0).
  assert (Nb : best <> []). { intros ->. cbn in Sb. assert (max_bits l <> 0); [|congruence]. lia. }
  pose proof (level_bounds l best 0 Nb). pose proof (level_bounds l units 0 Hu). lia.
Qed.

Lemma parts_len : forall ws n, parts_of n ws -> length ws <= n.
Proof. intros ws n (P & S). subst n. induction P; cbn [length]; [lia|]. rewrite sum_cons. lia. Qed.

Theorem dac_auto_near_best_bytes : forall l, l <> [] -> Forall (fun v => (v < 256)%N) l -> (N.of_nat (length l) < 2 ^ 57)%N ->
  exists d, dac_of_list_tolerant l [] = Ok d /\
  forall units d', units <> [] -> max_bits l <= list_sum_nat units -> dac_of_list l units = Ok d' ->
   (64 * N.of_nat (dac_words d) <= 64 * N.of_nat (dac_words d') + 63 * N.of_nat (length (dac_units d)) + 191 * N.of_nat (length units - 1))%N.
Proof.
  intros l Hl F Hn. apply dac_auto_near_best; auto.
  - eapply Forall_impl; [|exact F]. cbn beta. intros v Hv. eapply N.lt_trans; [exact Hv|reflexivity].
  - intros best (P & _). apply parts_len in P. etransitivity; [exact P|]. clear - F. unfold max_bits. induction F as [|v l Hv F IH]; cbn [map fold_right]; [lia|].
    assert (bits_needed v <= 8) by (apply bits_needed_le; [exact Hv|lia]). lia.
Qed.

Lemma starts_nth : forall ws t k, k < length ws -> nth k (starts t ws) 0 = t + list_sum_nat (firstn k ws).
Proof.
  induction ws as [|w ws IH]; intros t k H; cbn [length] in H; [lia|]. destruct k; cbn [starts nth firstn]; [unfold list_sum_nat; simpl; lia|]. rewrite IH by lia. rewrite sum_cons. lia.
Qed.
Lemma starts_length : forall ws t, length (starts t ws) = length ws.
Proof. induction ws; intros; cbn [starts length]; auto. Qed.
Theorem dac_chunks : forall units l d k, l <> [] -> units <> [] -> dac_of_list l units = Ok d ->
  length (dac_counts d) = length units /\ (k < length units -> N.of_nat (nth k (dac_counts d) 0) = wider l (list_sum_nat (firstn k units))).
Proof.
  intros units l d k Hl Hu E. destruct (dac_space units l d Hl Hu E) as (_ & C). split.
  - apply (f_equal (@length N)) in C. rewrite !map_length, starts_length in C. exact C.
  - intros Hk. pose proof (starts_nth units 0 k Hk) as S. cbn [Nat.add] in S. rewrite <- S. rewrite <- (map_nth (wider l)), <- C. rewrite <- (map_nth N.of_nat).
    apply nth_indep. rewrite C, map_length, starts_length. exact Hk.
Qed.
