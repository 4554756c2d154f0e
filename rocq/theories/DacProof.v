(** Proofs about DacModel.v *)
From Coq Require Import List NArith ZArith Lia Bool Arith.
From Verif Require Import Base Spec BitUtilModel BitUtilProof BitUtilProof2 CalcModel CalcProof CalcProof2
  BitVectorModel BitVectorProof BitVectorProof2 SuccinctModel SuccinctProof SuccinctProof2 SuccinctProof3 FitVectorModel FitVectorProof DacModel.
Import ListNotations.
Local Open Scope nat_scope.

Definition pos (x : N) : bool := (0 <? x)%N.
Definition low (u : nat) (x : N) : N := (x mod 2 ^ N.of_nat u)%N.
Definition hi (u : nat) (x : N) : N := N.shiftr x (N.of_nat u).

(** levels from depth 1 on; [l] are the values still to be stored, zeros included *)
Fixpoint deep_rep (units : list nat) (layers : list fitvec) (paths : list bitvec) (l : list N) : Prop :=
  match units, layers, paths with
  | [], _, _ => True
  | u :: us, L :: Ls, p :: ps =>
      bv_rep p (map pos l) /\ fv_rep L (map (low u) (filter pos l)) true /\ fv_width L = u /\
      deep_rep us Ls ps (map (hi u) (filter pos l))
  | _, _, _ => False
  end.

Lemma land_low : forall x u, u < 64 -> N.land x (N.ones (N.of_nat u)) = low u x.
Proof. intros. apply N.land_ones. Qed.

Lemma low_lt : forall u x, (low u x < 2 ^ N.of_nat u)%N.
Proof. intros. apply N.mod_upper_bound, N.pow_nonzero. lia. Qed.

Lemma push_deep_rep : forall units layers paths l x, Forall (fun u => 1 <= u <= 63) units ->
  length layers = length units -> length paths = length units -> deep_rep units layers paths l ->
  exists r, dac_push_deep units layers paths x = Ok r /\ length (fst r) = length units /\ length (snd r) = length units /\
    deep_rep units (fst r) (snd r) (l ++ [x]).
Proof.
  induction units as [|u us IH]; intros layers paths l x F Ll Lp D.
  - exists (layers, paths). simpl. auto.
  - destruct layers as [|L Ls], paths as [|p ps]; simpl in Ll, Lp; try lia. destruct D as (B & V & W & D).
    inversion F as [|? ? Fu Fs]. cbn [dac_push_deep].
    destruct (bv_push_rep p _ (pos x) B) as (p' & Ep & Rp). change (0 <? x)%N with (pos x). rewrite Ep. cbn [bind].
    destruct (pos x) eqn:Ex; cbn [negb].
    + rewrite WidthMask_ones by lia. cbn [bind]. rewrite land_low by lia.
      destruct (fv_push_rep L _ true (low u x) V) as (L' & EL & WL & RL); [rewrite W; apply low_lt|].
      rewrite EL. cbn [bind]. rewrite shr64_Ok by lia. cbn [bind].
      destruct (IH Ls ps _ (hi u x) Fs ltac:(lia) ltac:(lia) D) as ([r1 r2] & E & A1 & A2 & A3).
      unfold hi in E. rewrite E. cbn [bind]. eexists. split; [reflexivity|]. cbn [fst snd length] in *. split; [lia|]. split; [lia|].
      cbn [deep_rep]. rewrite filter_app, !map_app. cbn [filter]. rewrite Ex. cbn [map]. rewrite Ex.
      split; [auto|]. split; [auto|]. split; [congruence|]. auto.
    + eexists. split; [reflexivity|]. cbn [fst snd length deep_rep]. split; [simpl; lia|]. split; [simpl; lia|].
      rewrite filter_app, map_app. cbn [filter]. rewrite Ex. rewrite app_nil_r. cbn [map]. rewrite Ex. auto.
Qed.

Definition all_rep (units : list nat) (st : list fitvec * list bitvec) (l : list N) : Prop :=
  match units, fst st with
  | u0 :: us, L0 :: Ls => fv_rep L0 (map (low u0) l) true /\ fv_width L0 = u0 /\ length Ls = length us /\ length (snd st) = length us /\
      deep_rep us Ls (snd st) (map (hi u0) l)
  | _, _ => False
  end.

Lemma push_rep : forall units st l x, Forall (fun u => 1 <= u <= 63) units -> all_rep units st l ->
  exists st', dac_push units st x = Ok st' /\ all_rep units st' (l ++ [x]).
Proof.
  intros [|u0 us] [[|L0 Ls] paths] l x F R; try destruct R. inversion F as [|? ? Fu Fs].
  cbn [all_rep fst snd] in *. destruct H0 as (W & L1 & L2 & D). cbn [dac_push].
  rewrite WidthMask_ones by lia. cbn [bind]. rewrite land_low by lia.
  destruct (fv_push_rep L0 _ true (low u0 x) H) as (L' & EL & WL & RL); [rewrite W; apply low_lt|].
  rewrite EL. cbn [bind]. rewrite shr64_Ok by lia. cbn [bind].
  destruct (push_deep_rep us Ls paths _ (hi u0 x) Fs L1 L2 D) as ([r1 r2] & E & A1 & A2 & A3).
  unfold hi in E. rewrite E. cbn [bind]. eexists. split; [reflexivity|]. cbn [all_rep fst snd] in *. rewrite !map_app. 
  split; auto. split; [congruence|]. auto.
Qed.

Lemma push_all_rep : forall units xs st l, Forall (fun u => 1 <= u <= 63) units -> all_rep units st l ->
  exists st', foldM (dac_push units) xs st = Ok st' /\ all_rep units st' (l ++ xs).
Proof.
  intros units xs. induction xs; intros st l F R.
  - exists st. rewrite app_nil_r. auto.
  - destruct (push_rep units st l a F R) as (st1 & E1 & R1). destruct (IHxs st1 _ F R1) as (st2 & E2 & R2).
    exists st2. cbn [foldM]. rewrite E1. cbn [bind]. split; auto. now rewrite <- app_assoc in R2.
Qed.

Lemma start_rep : forall u0 us, Forall (fun u => 1 <= u <= 63) (u0 :: us) ->
  all_rep (u0 :: us) (map fv_make (u0 :: us), repeat bv_default (length us)) [].
Proof.
  intros u0 us F. inversion F as [|? ? Fu Fs]. cbn [all_rep fst snd map]. split; [now apply fv_make_rep|]. split; [reflexivity|].
  rewrite map_length, repeat_length. split; auto. split; auto. clear - Fs. induction Fs as [|u us Hu Fs IH]; simpl; auto.
  split; [apply bv_default_rep|]. split; [now apply fv_make_rep|]. split; auto.
Qed.

(** after the paths have got their rank directories *)
Fixpoint deep_ok (units : list nat) (layers : list fitvec) (paths : list sbv) (l : list N) : Prop :=
  match units, layers, paths with
  | [], _, _ => True
  | u :: us, L :: Ls, p :: ps =>
      sbv_ok p (map pos l) /\ fv_rep L (map (low u) (filter pos l)) true /\ fv_width L = u /\
      deep_ok us Ls ps (map (hi u) (filter pos l))
  | _, _, _ => False
  end.

Lemma build_paths : forall units layers paths l, length paths = length units -> deep_rep units layers paths l ->
  exists ps, mapM (sb_build false) paths = Ok ps /\ deep_ok units layers ps l.
Proof.
  induction units as [|u us IH]; intros layers paths l Lp D.
  - destruct paths; simpl in Lp; [|lia]. exists []. simpl. auto.
  - destruct layers as [|L Ls], paths as [|p ps]; simpl in Lp; try lia; try destruct D as (B & V & W & D).
    + destruct D.
    + destruct (sb_build_total p _ false B) as (s & Es & _ & Os). destruct (IH Ls ps _ ltac:(lia) D) as (ss & E & O).
      exists (s :: ss). cbn [mapM]. rewrite Es. cbn [bind]. rewrite E. cbn [bind]. split; auto. simpl. auto.
Qed.

(** position of a kept element in the filtered list *)
Lemma nth_filter_count : forall A (p : A -> bool) l i d, i < length l -> p (nth i l d) = true ->
  count_true (firstn i (map p l)) < length (filter p l) /\ nth (count_true (firstn i (map p l))) (filter p l) d = nth i l d.
Proof.
  induction l; intros i d Hi Hp; simpl in Hi; [lia|]. destruct i.
  - simpl in *. rewrite Hp. change (count_true []) with 0. simpl. split; [lia|auto].
  - simpl in Hp. destruct (IHl i d) as (A1 & A2); [lia|auto|]. simpl. destruct (p a); simpl; unfold count_true in *; simpl; [|auto].
    split; [lia|auto].
Qed.

Lemma sb_get_ok : forall s l i, sbv_ok s l -> i < length l -> sb_get s i = Ok (nth i l false).
Proof. intros s l i (R & _) Hi. unfold sb_get. now apply bv_get_rep. Qed.

Lemma nth_map_d : forall A B (f : A -> B) l i d d', i < length l -> nth i (map f l) d' = f (nth i l d).
Proof. intros. rewrite nth_indep with (d' := f d) by (rewrite map_length; auto). apply map_nth. Qed.

Lemma hi_low : forall u x, x = (low u x + 2 ^ N.of_nat u * hi u x)%N.
Proof. intros. unfold low, hi. rewrite N.shiftr_div_pow2. rewrite N.add_comm. apply N.div_mod, N.pow_nonzero. lia. Qed.

Lemma shift_fits : forall x sh, x <> 0%N -> (x * 2 ^ N.of_nat sh < 2 ^ 64)%N -> sh < 64.
Proof.
  intros. destruct (Nat.lt_ge_cases sh 64); auto. exfalso.
  assert (2 ^ 64 <= 2 ^ N.of_nat sh)%N by (apply N.pow_le_mono_r; lia). nia.
Qed.

Lemma lor_add : forall v x sh, (v < 2 ^ N.of_nat sh)%N -> N.lor v (x * 2 ^ N.of_nat sh) = (v + x * 2 ^ N.of_nat sh)%N.
Proof.
  intros v x sh H. assert (E : N.land v (x * 2 ^ N.of_nat sh) = 0%N).
  { apply N.bits_inj; intro i. rewrite N.land_spec, N.bits_0, <- N.shiftl_mul_pow2.
    destruct (N.lt_ge_cases i (N.of_nat sh)); [rewrite N.shiftl_spec_low by auto; apply andb_false_r|].
    rewrite <- (N.mod_small v (2 ^ N.of_nat sh)) by auto. rewrite N.mod_pow2_bits_high by auto. reflexivity. }
  rewrite N.add_nocarry_lxor by auto. symmetry. now apply N.lxor_lor.
Qed.

Lemma get_deep_ok : forall units layers paths l i sh v, deep_ok units layers paths l -> i < length l ->
  (v < 2 ^ N.of_nat sh)%N -> (nth i l 0 * 2 ^ N.of_nat sh < 2 ^ 64)%N -> (nth i l 0 < 2 ^ N.of_nat (list_sum_nat units))%N ->
  dac_get_deep units layers paths sh i v = Ok (v + nth i l 0 * 2 ^ N.of_nat sh)%N.
Proof.
  induction units as [|u us IH]; intros layers paths l i sh v D Hi Hv Hx Hs.
  - cbn [dac_get_deep]. simpl in Hs. replace (nth i l 0%N) with 0%N by lia. f_equal. lia.
  - destruct layers as [|L Ls], paths as [|p ps]; try destruct D as (B & V & W & D); try (destruct D; fail).
    cbn [dac_get_deep]. rewrite (sb_get_ok p (map pos l)) by (rewrite ?map_length; auto). cbn [bind].
    rewrite (nth_map_d _ _ pos l i 0%N) by auto. set (x := nth i l 0%N) in *. destruct (pos x) eqn:Ex; cbn [negb].
    + assert (Hx0 : x <> 0%N) by (unfold pos in Ex; destruct (N.ltb_spec 0 x); [lia|discriminate]).
      rewrite (rank_ok p (map pos l)) by (rewrite ?map_length; auto; lia). cbn [bind]. rewrite Nat2N.id.
      destruct (nth_filter_count N pos l i 0%N Hi Ex) as (A1 & A2). fold x in A2. set (r := count_true (firstn i (map pos l))) in *.
      rewrite (fv_get_rep L _ true r V) by (rewrite map_length; auto). cbn [bind].
      rewrite (nth_map_d _ _ (low u) (filter pos l) r 0%N) by auto. rewrite A2.
      assert (Hsh : sh < 64) by (apply shift_fits with x; auto).
      rewrite shl64_Ok by lia. cbn [bind].
      pose proof (hi_low u x) as HL. pose proof (low_lt u x) as LL.
      assert (P1 : (2 ^ N.of_nat u <> 0)%N) by (apply N.pow_nonzero; lia).
      assert (P2 : (2 ^ N.of_nat sh <> 0)%N) by (apply N.pow_nonzero; lia).
      assert (E1 : wshl (low u x) (N.of_nat sh) = (low u x * 2 ^ N.of_nat sh)%N).
      { unfold wshl. rewrite N.shiftl_mul_pow2. apply wrap64_small. nia. }
      rewrite E1, lor_add by auto.
      assert (Ep : (2 ^ N.of_nat (sh + u) = 2 ^ N.of_nat sh * 2 ^ N.of_nat u)%N) by (rewrite Nat2N.inj_add; apply N.pow_add_r).
      rewrite (IH Ls ps _ r (sh + u) _ D).
      * rewrite (nth_map_d _ _ (hi u) (filter pos l) r 0%N) by auto. rewrite A2. f_equal. rewrite Ep. rewrite HL at 3. lia.
      * rewrite map_length. auto.
      * rewrite Ep. nia.
      * rewrite (nth_map_d _ _ (hi u) (filter pos l) r 0%N) by auto. rewrite A2, Ep. rewrite HL in Hx at 1. nia.
      * rewrite (nth_map_d _ _ (hi u) (filter pos l) r 0%N) by auto. rewrite A2.
        cbn [list_sum_nat fold_right] in Hs. fold (list_sum_nat us) in Hs. rewrite Nat2N.inj_add, N.pow_add_r in Hs.
        unfold hi. rewrite N.shiftr_div_pow2. apply N.div_lt_upper_bound; auto.
    + unfold pos in Ex. replace x with 0%N by (destruct (N.ltb_spec 0 x); [discriminate|lia]). f_equal. lia.
Qed.

Lemma reserve_ok : forall units cf t, Forall (fun u => 1 <= u <= 63) units -> 
  (forall k, k < length units -> t + list_sum_nat (firstn k units) < length cf) -> dac_reserve cf units t = Ok tt.
Proof.
  induction units as [|u us IH]; intros cf t F H; auto. inversion F as [|? ? Fu Fs]. cbn [dac_reserve].
  assert (t < length cf) by (specialize (H 0); simpl in H; lia).
  rewrite (lget_nth _ cf t 0) by auto. cbn [bind]. destruct (Nat.eqb_spec u 0); [lia|]. cbn [andb]. apply IH; auto.
  intros k Hk. specialize (H (S k)). simpl in H. fold (list_sum_nat (firstn k us)) in H. lia.
Qed.

Lemma max_bits_le63 : forall l, Forall (fun v => (v < 2 ^ 63)%N) l -> max_bits l <= 63.
Proof.
  induction 1; unfold max_bits in *; simpl; [lia|]. assert (bits_needed x <= 63) by (apply bits_needed_le; auto; lia). lia.
Qed.

Lemma max_bits_fits : forall l x, In x l -> (x < 2 ^ N.of_nat (max_bits l))%N.
Proof.
  intros. destruct (bits_needed_spec x) as (_ & B & _). apply N.lt_le_trans with (2 ^ N.of_nat (bits_needed x))%N; [auto|]. apply N.pow_le_mono_r; [lia|].
  pose proof (max_bits_In l x H). lia.
Qed.

Definition widths_ok (units : list nat) (mb : nat) : Prop :=
  units <> [] /\ Forall (fun u => 1 <= u <= 63) units /\ mb <= list_sum_nat units /\
  forall k, k < length units -> list_sum_nat (firstn k units) < mb.

Definition dac_ok (d : dac) (units : list nat) (l : list N) : Prop :=
  dac_num d = Some (length units) /\ dac_units d = units /\
  match units, dac_layers d with
  | u0 :: us, L0 :: Ls => fv_rep L0 (map (low u0) l) true /\ fv_width L0 = u0 /\ deep_ok us Ls (dac_paths d) (map (hi u0) l)
     /\ length (dac_paths d) = length us /\ length Ls = length us
  | _, _ => False
  end.

Lemma dac_build_ok : forall units l, Forall (fun v => (v < 2 ^ 63)%N) l -> widths_ok units (max_bits l) ->
  exists d, dac_build units l = Ok d /\ dac_ok d units l.
Proof.
  intros units l F (Hn & Fu & Hc & Hp). destruct units as [|u0 us]; [congruence|]. unfold dac_build. remember (u0 :: us) as units eqn:Eu.
  destruct (cummulative_frequency_list_spec l F) as (cf & Ecf & Lcf & _). rewrite Ecf. cbn [bind].
  rewrite reserve_ok by (auto; rewrite Lcf; auto). cbn [bind].
  destruct (push_all_rep units l (map fv_make units, repeat bv_default (length us)) [] Fu) as ([layers paths] & E & R).
  { rewrite Eu in *. now apply start_rep. }
  rewrite E. cbn [bind fst snd]. simpl app in R. rewrite Eu in R. destruct layers as [|L0 Ls]; [destruct R|]. cbn [all_rep fst snd] in R.
  destruct R as (V & W & L1 & L2 & D). destruct (build_paths us Ls paths _ L2 D) as (ps & Eps & O). rewrite Eps. cbn [bind].
  eexists. split; [reflexivity|]. unfold dac_ok. cbn [dac_num dac_units dac_layers dac_paths]. split; auto. split; auto. rewrite Eu.
  split; auto. split; auto. split; auto. split; auto.
  rewrite <- L2. clear - Eps. revert ps Eps. induction paths; intros ps E; simpl in E; [injection E as <-; auto|].
  apply bind_Ok_inv in E. destruct E as (s & _ & E). apply bind_Ok_inv in E. destruct E as (ss & E1 & E2). injection E2 as <-. simpl. f_equal. auto.
Qed.

Lemma dac_get_ok : forall d units l i, dac_ok d units l -> i < length l -> (nth i l 0 < 2 ^ 64)%N ->
  (nth i l 0 < 2 ^ N.of_nat (list_sum_nat units))%N -> dac_get d i = Ok (nth i l 0%N).
Proof.
  intros d units l i (En & Eu & R) Hi H64 Hs. unfold dac_get. rewrite En, Eu. destruct units as [|u0 us]; [destruct R|].
  destruct (dac_layers d) as [|L0 Ls]; [destruct R|]. destruct R as (V & W & D & _). cbn [lget nth_error bind].
  change (lget (L0 :: Ls) 0) with (Ok L0). cbn [bind].
  rewrite (fv_get_rep L0 _ true i V) by (rewrite map_length; auto). cbn [bind]. change (lget (u0 :: us) 0) with (Ok u0). cbn [bind].
  rewrite firstn_all. cbn [skipn]. rewrite (nth_map_d _ _ (low u0) l i 0%N) by auto. set (x := nth i l 0%N) in *.
  pose proof (hi_low u0 x) as HL.
  assert (P1 : (2 ^ N.of_nat u0 <> 0)%N) by (apply N.pow_nonzero; lia).
  rewrite (get_deep_ok us Ls (dac_paths d) _ i u0 _ D).
  - rewrite (nth_map_d _ _ (hi u0) l i 0%N) by auto. fold x. f_equal. lia.
  - now rewrite map_length.
  - apply low_lt.
  - rewrite (nth_map_d _ _ (hi u0) l i 0%N) by auto. fold x. lia.
  - rewrite (nth_map_d _ _ (hi u0) l i 0%N) by auto. fold x. cbn [list_sum_nat fold_right] in Hs. fold (list_sum_nat us) in Hs.
    rewrite Nat2N.inj_add, N.pow_add_r in Hs. unfold hi. rewrite N.shiftr_div_pow2. apply N.div_lt_upper_bound; auto.
Qed.

Lemma dac_size_ok : forall d units l, dac_ok d units l -> dac_size d = Ok (length l).
Proof.
  intros d units l (En & Eu & R). unfold dac_size. destruct units as [|u0 us]; [destruct R|].
  destruct (dac_layers d) as [|L0 Ls]; [destruct R|]. destruct R as ((_ & Z & _) & _). cbn. rewrite Z, map_length. auto.
Qed.

(** ** depth *)
Lemma hi_hi : forall u s x, N.shiftr (hi u x) s = N.shiftr x (N.of_nat u + s).
Proof. intros. unfold hi. apply N.shiftr_shiftr. Qed.

Lemma depth_ok : forall units layers paths l i dep, deep_ok units layers paths l -> i < length l ->
  exists k, dac_depth_loop (length units) paths dep i = Ok (dep + k) /\ k <= length units /\
   (k < length units -> N.shiftr (nth i l 0%N) (N.of_nat (list_sum_nat (firstn k units))) = 0%N) /\
   (forall j, j < k -> N.shiftr (nth i l 0%N) (N.of_nat (list_sum_nat (firstn j units))) <> 0%N).
Proof.
  induction units as [|u us IH]; intros layers paths l i dep D Hi.
  - exists 0. simpl. split; [f_equal; lia|]. split; auto. split; intros; lia.
  - destruct layers as [|L Ls], paths as [|p ps]; try destruct D as (B & V & W & D); try (destruct D; fail).
    cbn [dac_depth_loop length]. rewrite (sb_get_ok p (map pos l)) by (rewrite ?map_length; auto). cbn [bind].
    rewrite (nth_map_d _ _ pos l i 0%N) by auto. set (x := nth i l 0%N) in *. destruct (pos x) eqn:Ex; cbn [negb].
    + assert (Hx0 : x <> 0%N) by (unfold pos in Ex; destruct (N.ltb_spec 0 x); [lia|discriminate]).
      rewrite (rank_ok p (map pos l)) by (rewrite ?map_length; auto; lia). cbn [bind]. rewrite Nat2N.id.
      destruct (nth_filter_count N pos l i 0%N Hi Ex) as (A1 & A2). fold x in A2. set (r := count_true (firstn i (map pos l))) in *.
      destruct (IH Ls ps _ r (S dep) D) as (k & E & K1 & K2 & K3); [now rewrite map_length|].
      rewrite (nth_map_d _ _ (hi u) (filter pos l) r 0%N) in K2, K3 by auto. rewrite A2 in K2, K3.
      exists (S k). split; [rewrite E; f_equal; lia|]. split; [lia|]. split.
      * intros Hk. cbn [firstn list_sum_nat fold_right]. fold (list_sum_nat (firstn k us)). rewrite Nat2N.inj_add, <- hi_hi. apply K2. lia.
      * intros [|j] Hj; [exact Hx0|]. cbn [firstn list_sum_nat fold_right]. fold (list_sum_nat (firstn j us)).
        rewrite Nat2N.inj_add, <- hi_hi. apply K3. lia.
    + unfold pos in Ex. assert (x = 0%N) by (destruct (N.ltb_spec 0 x); [discriminate|lia]). exists 0. split; [f_equal; lia|]. split; [lia|].
      split; [intros; rewrite H; apply N.shiftr_0_l|intros; lia].
Qed.

Lemma shiftr_zero : forall x s, N.shiftr x s = 0%N <-> (x < 2 ^ s)%N.
Proof. intros. rewrite N.shiftr_div_pow2. split; intros H; [now apply N.div_small_iff in H; [|apply N.pow_nonzero; lia]|now apply N.div_small]. Qed.

Lemma dac_depth_ok : forall d units l i, dac_ok d units l -> i < length l -> (nth i l 0 < 2 ^ N.of_nat (list_sum_nat units))%N ->
  exists k, dac_depth d i = Ok k /\ (nth i l 0 < 2 ^ N.of_nat (list_sum_nat (firstn (S k) units)))%N /\
   forall j, j < k -> (2 ^ N.of_nat (list_sum_nat (firstn (S j) units)) <= nth i l 0)%N.
Proof.
  intros d units l i (En & Eu & R) Hi Hs. unfold dac_depth. rewrite En. destruct units as [|u0 us]; [destruct R|].
  destruct (dac_layers d) as [|L0 Ls]; [destruct R|]. destruct R as (V & W & D & _). cbn [length].
  destruct (depth_ok us Ls (dac_paths d) _ i 0 D) as (k & E & K1 & K2 & K3); [now rewrite map_length|].
  rewrite (nth_map_d _ _ (hi u0) l i 0%N) in K2, K3 by auto.
  exists k. split; auto. split.
  - destruct (Nat.lt_ge_cases k (length us)).
    + apply shiftr_zero. cbn [firstn list_sum_nat fold_right]. fold (list_sum_nat (firstn k us)).
      rewrite Nat2N.inj_add, <- hi_hi. auto.
    + rewrite firstn_all2 by (simpl; lia). auto.
  - intros j Hj. destruct (N.lt_ge_cases (nth i l 0%N) (2 ^ N.of_nat (list_sum_nat (firstn (S j) (u0 :: us))))); auto. exfalso.
    apply (K3 j Hj). rewrite hi_hi, <- Nat2N.inj_add. apply shiftr_zero. apply H.
Qed.

(** ** statements *)
Lemma firstn_sum_lt : forall r k, Forall (fun w => 1 <= w) r -> k < length r -> list_sum_nat (firstn k r) < list_sum_nat r.
Proof.
  induction r; intros k F Hk; simpl in Hk; [lia|]. inversion F as [|? ? Fa Fr]. destruct k; simpl; [lia|].
  fold (list_sum_nat (firstn k r)). fold (list_sum_nat r). specialize (IHr k Fr ltac:(lia)). lia.
Qed.

Lemma In_le_sum : forall r x, In x r -> x <= list_sum_nat r.
Proof. induction r; intros x H; destruct H; simpl; fold (list_sum_nat r); [lia|]. specialize (IHr _ H). lia. Qed.

Lemma dac_reads : forall units l, Forall (fun v => (v < 2 ^ 63)%N) l -> widths_ok units (max_bits l) ->
  exists d, dac_build units l = Ok d /\ dac_size d = Ok (length l) /\
   (forall i, i < length l -> dac_get d i = Ok (nth i l 0%N)) /\
   (forall i, dac_at d i = match nth_error l i with Some x => Ok x | None => Throw end) /\
   (forall i, i < length l -> exists k, dac_depth d i = Ok k /\
      (nth i l 0 < 2 ^ N.of_nat (list_sum_nat (firstn (S k) units)))%N /\
      forall j, j < k -> (2 ^ N.of_nat (list_sum_nat (firstn (S j) units)) <= nth i l 0)%N).
Proof.
  intros units l F W. destruct (dac_build_ok units l F W) as (d & E & O). exists d. split; auto.
  assert (Z := dac_size_ok _ _ _ O). split; auto. destruct W as (_ & _ & Hc & _).
  assert (Hs : forall i, i < length l -> (nth i l 0 < 2 ^ N.of_nat (list_sum_nat units))%N).
  { intros i Hi. apply N.lt_le_trans with (2 ^ N.of_nat (max_bits l))%N; [apply max_bits_fits, nth_In; auto|].
    apply N.pow_le_mono_r; lia. }
  assert (H64 : forall i, i < length l -> (nth i l 0 < 2 ^ 64)%N).
  { intros i Hi. rewrite Forall_forall in F. apply N.lt_trans with (2 ^ 63)%N; [apply F, nth_In; auto|reflexivity]. }
  assert (G : forall i, i < length l -> dac_get d i = Ok (nth i l 0%N)) by (intros; apply dac_get_ok with units; auto).
  split; auto. split.
  - intros i. unfold dac_at. rewrite Z. cbn [bind]. destruct (Nat.leb_spec (length l) i).
    + now rewrite (proj2 (nth_error_None l i)).
    + rewrite G by auto. now rewrite (nth_error_nth' l 0%N) by auto.
  - intros i Hi. apply (dac_depth_ok d units l i); auto.
Qed.

Lemma tolerant_widths : forall l r, Forall (fun v => (v < 2 ^ 63)%N) l -> 1 <= length r -> Forall (fun w => 1 <= w) r -> list_sum_nat r = max_bits l ->
  widths_ok r (max_bits l).
Proof.
  intros l r F L P S. split; [destruct r; simpl in L; [lia|discriminate]|]. split.
  - rewrite Forall_forall in *. intros x Hx. split; [auto|]. apply Nat.le_trans with (list_sum_nat r); [now apply In_le_sum|].
    rewrite S. apply max_bits_le63. now rewrite Forall_forall.
  - split; [lia|]. intros k Hk. rewrite <- S. now apply firstn_sum_lt.
Qed.

Lemma dac_tolerant_reads : forall l, l <> [] -> Forall (fun v => (v < 2 ^ 63)%N) l -> (N.of_nat (length l) < 2 ^ 57)%N ->
  exists d, dac_of_list_tolerant l [] = Ok d /\ dac_size d = Ok (length l) /\ length (dac_units d) <= 8 /\
   forall i, dac_at d i = match nth_error l i with Some x => Ok x | None => Throw end.
Proof.
  intros l Hl F Hn. destruct (split_positions_tolerant_ok l 8 Hl F Hn ltac:(lia)) as (r & E & L & P & S).
  destruct (dac_build_ok r l F (tolerant_widths l r F ltac:(lia) P S)) as (d & Ed & (_ & Eu & _)).
  destruct (dac_reads r l F (tolerant_widths l r F ltac:(lia) P S)) as (d' & Ed' & Z & G & A & _).
  assert (d' = d) by congruence. subst d'. exists d. split.
  - unfold dac_of_list_tolerant, dac_of_list_gen. destruct l; [congruence|]. rewrite E. exact Ed.
  - split; auto. split; [rewrite Eu; lia|auto].
Qed.

Lemma dac_explicit_reads : forall units l, l <> [] -> Forall (fun v => (v < 2 ^ 63)%N) l -> 
  units <> [] -> Forall (fun u => 1 <= u <= 63) units -> max_bits l <= list_sum_nat units -> 
  list_sum_nat (removelast units) < max_bits l ->
  exists d, dac_of_list l units = Ok d /\ dac_size d = Ok (length l) /\
   (forall i, dac_at d i = match nth_error l i with Some x => Ok x | None => Throw end) /\
   (forall i, i < length l -> dac_get d i = Ok (nth i l 0%N)) /\
   (forall i, i < length l -> exists k, dac_depth d i = Ok k /\
      (nth i l 0 < 2 ^ N.of_nat (list_sum_nat (firstn (S k) units)))%N /\
      forall j, j < k -> (2 ^ N.of_nat (list_sum_nat (firstn (S j) units)) <= nth i l 0)%N).
Proof.
  intros units l Hl F Hn Fu Hc Hr. destruct (dac_reads units l F) as (d & E & Z & G & A & D).
  - split; auto. split; auto. split; auto. intros k Hk.
    rewrite (app_removelast_last 0 Hn). rewrite (app_removelast_last 0 Hn), app_length in Hk. simpl in Hk.
    rewrite firstn_app. replace (k - _) with 0 by lia. rewrite firstn_O, app_nil_r.
    apply Nat.le_lt_trans with (list_sum_nat (removelast units)); auto. clear. 
    revert k. induction (removelast units); intros [|k]; simpl; auto; try lia. fold (list_sum_nat (firstn k l)). fold (list_sum_nat l). specialize (IHl k). lia.
  - exists d. split; [|auto]. unfold dac_of_list, dac_of_list_gen. destruct l; [congruence|]. destruct units; [congruence|]. exact E.
Qed.

Lemma dac_of_list_UB : forall l, l <> [] -> Forall (fun v => (v < 2 ^ 63)%N) l -> (N.of_nat (length l) < 2 ^ 57)%N -> dac_of_list l [] = UB.
Proof.
  intros. unfold dac_of_list, dac_of_list_gen. destruct l; [congruence|]. now rewrite split_positions_UB.
Qed.
