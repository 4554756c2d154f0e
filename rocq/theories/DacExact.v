(** What DacVector does with every list of level widths. *)
From Coq Require Import List NArith ZArith Lia Bool Arith.
From Verif Require Import Base Spec BitUtilModel BitUtilProof BitUtilProof2 CalcModel CalcProof CalcProof2 CalcExact
  BitVectorModel BitVectorProof BitVectorProof2 SuccinctModel SuccinctProof SuccinctProof2 SuccinctProof3 FitVectorModel FitVectorProof DacModel DacProof.
Import ListNotations.
Local Open Scope nat_scope.

Definition starts_below (units : list nat) (mb : nat) : Prop := forall k, k < length units -> list_sum_nat (firstn k units) < mb.

Lemma build_ok : forall units l, Forall (fun v => (v < 2 ^ 63)%N) l -> units <> [] -> Forall (fun u => 1 <= u <= 63) units ->
  starts_below units (max_bits l) -> exists d, dac_build units l = Ok d /\ dac_ok d units l.
Proof.
  intros units l F Hn Fu Hp. destruct units as [|u0 us]; [congruence|]. unfold dac_build. remember (u0 :: us) as units eqn:Eu.
  destruct (cummulative_frequency_list_spec l F) as (cf & Ecf & Lcf & _). rewrite Ecf. cbn [bind].
  rewrite reserve_ok by (auto; rewrite Lcf; auto). cbn [bind].
  destruct (push_all_rep units l (map fv_make units, repeat bv_default (length us)) [] Fu) as ([layers paths] & E & R).
  { rewrite Eu in *. now apply start_rep. }
  rewrite E. cbn [bind fst snd]. simpl app in R. rewrite Eu in R. destruct layers as [|L0 Ls]; [destruct R|]. cbn [all_rep fst snd] in R.
  destruct R as (V & W & L1 & L2 & D). destruct (build_paths us Ls paths _ L2 D) as (ps & Eps & O). rewrite Eps. cbn [bind].
  eexists. split; [reflexivity|]. unfold dac_ok. cbn [dac_num dac_units dac_layers dac_paths]. split; auto. split; auto. rewrite Eu.
  split; auto. split; auto. split; auto. split; auto.
  rewrite <- L2. clear - Eps. revert ps Eps. induction paths; intros ps E; simpl in E; [injection E as <-; auto|].
  apply bind_Ok_inv in E. destruct E as (s & _ & E). apply bind_Ok_inv in E. destruct E as (ss & E1 & E2). injection E2 as <-. simpl. f_equal. auto.
Qed.

Lemma mod_split : forall u s x, (x mod 2 ^ N.of_nat (u + s) = low u x + 2 ^ N.of_nat u * (hi u x mod 2 ^ N.of_nat s))%N.
Proof.
  intros. unfold low, hi. rewrite N.shiftr_div_pow2, Nat2N.inj_add, N.pow_add_r. apply N.mod_mul_r; apply N.pow_nonzero; lia.
Qed.

Lemma get_deep_mod : forall units layers paths l i sh v, deep_ok units layers paths l -> i < length l ->
  (v < 2 ^ N.of_nat sh)%N -> (nth i l 0 * 2 ^ N.of_nat sh < 2 ^ 64)%N ->
  dac_get_deep units layers paths sh i v = Ok (v + (nth i l 0 mod 2 ^ N.of_nat (list_sum_nat units)) * 2 ^ N.of_nat sh)%N.
Proof.
  induction units as [|u us IH]; intros layers paths l i sh v D Hi Hv Hx.
  - cbn [dac_get_deep]. change (2 ^ N.of_nat (list_sum_nat []))%N with 1%N. rewrite N.mod_1_r. f_equal. lia.
  - destruct layers as [|L Ls], paths as [|p ps]; try destruct D as (B & V & W & D); try (destruct D; fail).
    cbn [dac_get_deep]. rewrite (sb_get_ok p (map pos l)) by (rewrite ?map_length; auto). cbn [bind].
    rewrite (nth_map_d _ _ pos l i 0%N) by auto. set (x := nth i l 0%N) in *. destruct (pos x) eqn:Ex; cbn [negb].
    + assert (Hx0 : x <> 0%N) by (unfold pos in Ex; destruct (N.ltb_spec 0 x); [lia|discriminate]).
      rewrite (rank_ok p (map pos l)) by (rewrite ?map_length; auto; lia). cbn [bind]. rewrite Nat2N.id.
      destruct (nth_filter_count N pos l i 0%N Hi Ex) as (A1 & A2). fold x in A2. set (r := count_true (firstn i (map pos l))) in *.
      rewrite (fv_get_rep L _ true r V) by (rewrite map_length; auto). cbn [bind].
      rewrite (nth_map_d _ _ (low u) (filter pos l) r 0%N) by auto. rewrite A2.
      assert (Hsh : sh < 64) by (apply shift_fits with x; auto).
      rewrite shl64_Ok by lia. cbn [bind].
      pose proof (hi_low u x) as HL. pose proof (low_lt u x) as LL.
      assert (P1 : (2 ^ N.of_nat u <> 0)%N) by (apply N.pow_nonzero; lia).
      assert (P2 : (2 ^ N.of_nat sh <> 0)%N) by (apply N.pow_nonzero; lia).
      assert (E1 : wshl (low u x) (N.of_nat sh) = (low u x * 2 ^ N.of_nat sh)%N).
      { unfold wshl. rewrite N.shiftl_mul_pow2. apply wrap64_small. nia. }
      rewrite E1, lor_add by auto.
      assert (Ep : (2 ^ N.of_nat (sh + u) = 2 ^ N.of_nat sh * 2 ^ N.of_nat u)%N) by (rewrite Nat2N.inj_add; apply N.pow_add_r).
      rewrite (IH Ls ps _ r (sh + u) _ D).
      * rewrite (nth_map_d _ _ (hi u) (filter pos l) r 0%N) by auto. rewrite A2. f_equal. rewrite Ep.
        change (list_sum_nat (u :: us)) with (u + list_sum_nat us). rewrite mod_split. lia.
      * rewrite map_length. auto.
      * rewrite Ep. nia.
      * rewrite (nth_map_d _ _ (hi u) (filter pos l) r 0%N) by auto. rewrite A2, Ep. rewrite HL in Hx at 1. nia.
    + unfold pos in Ex. replace x with 0%N by (destruct (N.ltb_spec 0 x); [discriminate|lia]). rewrite N.mod_0_l by (apply N.pow_nonzero; lia). f_equal. lia.
Qed.

Lemma get_mod : forall d units l i, dac_ok d units l -> i < length l -> (nth i l 0 < 2 ^ 64)%N ->
  dac_get d i = Ok (nth i l 0 mod 2 ^ N.of_nat (list_sum_nat units))%N.
Proof.
  intros d units l i (En & Eu & R) Hi H64. unfold dac_get. rewrite En, Eu. destruct units as [|u0 us]; [destruct R|].
  destruct (dac_layers d) as [|L0 Ls]; [destruct R|]. destruct R as (V & W & D & _). cbn [lget nth_error bind].
  change (lget (L0 :: Ls) 0) with (Ok L0). cbn [bind].
  rewrite (fv_get_rep L0 _ true i V) by (rewrite map_length; auto). cbn [bind]. change (lget (u0 :: us) 0) with (Ok u0). cbn [bind].
  rewrite firstn_all. cbn [skipn]. rewrite (nth_map_d _ _ (low u0) l i 0%N) by auto. set (x := nth i l 0%N) in *.
  pose proof (hi_low u0 x) as HL.
  assert (P1 : (2 ^ N.of_nat u0 <> 0)%N) by (apply N.pow_nonzero; lia).
  rewrite (get_deep_mod us Ls (dac_paths d) _ i u0 _ D).
  - rewrite (nth_map_d _ _ (hi u0) l i 0%N) by auto. fold x. f_equal. change (list_sum_nat (u0 :: us)) with (u0 + list_sum_nat us). rewrite mod_split. lia.
  - now rewrite map_length.
  - apply low_lt.
  - rewrite (nth_map_d _ _ (hi u0) l i 0%N) by auto. fold x. lia.
Qed.

Lemma depth_any : forall d units l i, dac_ok d units l -> i < length l ->
  exists k, dac_depth d i = Ok k /\ k < length units /\
   (k + 1 < length units -> (nth i l 0 < 2 ^ N.of_nat (list_sum_nat (firstn (S k) units)))%N) /\
   forall j, j < k -> (2 ^ N.of_nat (list_sum_nat (firstn (S j) units)) <= nth i l 0)%N.
Proof.
  intros d units l i (En & Eu & R) Hi. unfold dac_depth. rewrite En. destruct units as [|u0 us]; [destruct R|].
  destruct (dac_layers d) as [|L0 Ls]; [destruct R|]. destruct R as (V & W & D & _). cbn [length].
  destruct (depth_ok us Ls (dac_paths d) _ i 0 D) as (k & E & K1 & K2 & K3); [now rewrite map_length|].
  rewrite (nth_map_d _ _ (hi u0) l i 0%N) in K2, K3 by auto.
  exists k. split; auto. split; [lia|]. split.
  - intros Hk. apply shiftr_zero. cbn [firstn list_sum_nat fold_right]. fold (list_sum_nat (firstn k us)).
    rewrite Nat2N.inj_add, <- hi_hi. apply K2. lia.
  - intros j Hj. destruct (N.lt_ge_cases (nth i l 0%N) (2 ^ N.of_nat (list_sum_nat (firstn (S j) (u0 :: us))))); auto. exfalso.
    apply (K3 j Hj). rewrite hi_hi, <- Nat2N.inj_add. apply shiftr_zero. apply H.
Qed.

(** ** the reservation *)
Lemma cumulative_pos : forall l cf, Forall (fun v => (v < 2 ^ 63)%N) l -> cummulative_frequency_list l = Ok cf ->
  length cf = max_bits l /\ forall k, k < max_bits l -> nth k cf 0 <> 0.
Proof.
  intros l cf F E. destruct (cummulative_frequency_list_spec l F) as (cf' & E' & L & H). assert (cf' = cf) by congruence. subst cf'.
  split; auto. intros k Hk. rewrite H by auto. assert (X : exists v, In v l /\ k < bits_needed v).
  { clear - Hk. unfold max_bits in Hk. induction l as [|x l IH]; simpl in Hk; [lia|].
    destruct (Nat.lt_ge_cases k (bits_needed x)); [exists x; simpl; auto|]. destruct IH as (v & A & B); [lia|]. exists v. simpl. auto. }
  destruct X as (v & A & B). unfold count_if. intros Z. apply length_zero_iff_nil in Z.
  assert (I : In v (filter (fun v => k <? bits_needed v) l)) by (apply filter_In; split; auto; now apply Nat.ltb_lt). rewrite Z in I. destruct I.
Qed.

(** the outcome of the reservation: the first level that starts at or past the longest value, or has width 0 *)
Lemma reserve_total : forall cf units t, (forall k, k < length cf -> nth k cf 0 <> 0) ->
  (dac_reserve cf units t = Ok tt /\ Forall (fun u => 1 <= u) units /\ forall k, k < length units -> t + list_sum_nat (firstn k units) < length cf) \/
  (dac_reserve cf units t = Throw /\ exists j, j < length units /\ nth j units 1 = 0 /\ Forall (fun u => 1 <= u) (firstn j units) /\ t + list_sum_nat (firstn j units) < length cf) \/
  (dac_reserve cf units t = UB /\ exists j, j < length units /\ Forall (fun u => 1 <= u) (firstn j units) /\ length cf <= t + list_sum_nat (firstn j units)).
Proof.
  intros cf units. induction units as [|u us IH]; intros t P.
  - left. split; auto. split; auto. cbn [length]. intros; lia.
  - cbn [dac_reserve]. destruct (Nat.lt_ge_cases t (length cf)) as [T|T].
    + rewrite (lget_nth _ cf t 0) by auto. cbn [bind]. destruct (Nat.eqb_spec (nth t cf 0) 0) as [Z|_]; [now elim (P t T)|]. destruct (Nat.eqb_spec u 0) as [->|U]; cbn [negb andb].
      * right. left. split; auto. exists 0. cbn. repeat split; auto; lia.
      * destruct (IH (t + u) P) as [(A & B & C)|[(A & j & B & C & D & G)|(A & j & B & C & D)]].
        -- left. split; auto. split; [constructor; auto; lia|]. intros [|k] Hk; [cbn; lia|]. cbn [firstn length] in *. change (list_sum_nat (u :: firstn k us)) with (u + list_sum_nat (firstn k us)). specialize (C k). lia.
        -- right. left. split; auto. exists (S j). cbn [nth firstn length]. change (list_sum_nat (u :: firstn j us)) with (u + list_sum_nat (firstn j us)). repeat split; auto; try lia. constructor; auto; lia.
        -- right. right. split; auto. exists (S j). cbn [firstn length]. change (list_sum_nat (u :: firstn j us)) with (u + list_sum_nat (firstn j us)). repeat split; auto; try lia. constructor; auto; lia.
    + right. right. assert (X : lget cf t = UB) by (apply lget_UB; lia). rewrite X. split; auto. exists 0. cbn. repeat split; auto; lia.
Qed.

(** ** a last level of 64 bits or more *)
Lemma firstn_sum_le : forall r k, list_sum_nat (firstn k r) <= list_sum_nat r.
Proof.
  induction r as [|a r IH]; intros [|k]; try (cbn; lia). cbn [firstn]. change (list_sum_nat (a :: firstn k r)) with (a + list_sum_nat (firstn k r)).
  change (list_sum_nat (a :: r)) with (a + list_sum_nat r). specialize (IH k). lia.
Qed.

(** pushing with a last unit of 64 or more: undefined exactly when the value reaches the last level *)
Lemma wide_mask : forall u, 64 <= u -> WidthMask (N.of_nat u) = UB.
Proof. intros u H. rewrite width_mask_exact. destruct (N.ltb_spec (N.of_nat u) 64); [lia|auto]. Qed.

Lemma push_deep_wide : forall us u Ls Lx ps px lb l x, Forall (fun u => 1 <= u <= 63) us -> 64 <= u ->
  length Ls = length us -> length ps = length us -> deep_rep us Ls ps l -> bv_rep px lb ->
  if (x <? 2 ^ N.of_nat (list_sum_nat us))%N then
    exists Ls' ps' px' lb', dac_push_deep (us ++ [u]) (Ls ++ [Lx]) (ps ++ [px]) x = Ok (Ls' ++ [Lx], ps' ++ [px']) /\
      length Ls' = length us /\ length ps' = length us /\ deep_rep us Ls' ps' (l ++ [x]) /\ bv_rep px' lb'
  else dac_push_deep (us ++ [u]) (Ls ++ [Lx]) (ps ++ [px]) x = UB.
Proof.
  induction us as [|w us IH]; intros u Ls Lx ps px lb l x F U Ll Lp D B.
  - destruct Ls, ps; cbn [length] in Ll, Lp; try lia. cbn [app dac_push_deep]. change (2 ^ N.of_nat (list_sum_nat []))%N with 1%N.
    change (0 <? x)%N with (pos x). destruct (bv_push_rep px _ (pos x) B) as (p' & Ep & Rp). rewrite Ep. cbn [bind].
    destruct (N.ltb_spec x 1) as [X|X].
    + assert (x = 0)%N by lia. subst x. cbn [pos N.ltb negb N.compare]. exists [], [], p', (lb ++ [pos 0%N]). split; [reflexivity|]. split; [reflexivity|]. split; [reflexivity|]. split; [exact I|exact Rp].
    + assert (Z : pos x = true) by (unfold pos; destruct (N.ltb_spec 0 x); [auto|lia]). rewrite Z. cbn [negb]. now rewrite wide_mask.
  - destruct Ls as [|L Ls], ps as [|p ps]; cbn [length] in Ll, Lp; try lia. destruct D as (Bp & V & W & D).
    inversion F as [|? ? Fu Fs]; subst. cbn [app dac_push_deep].
    destruct (bv_push_rep p _ (pos x) Bp) as (p' & Ep & Rp). change (0 <? x)%N with (pos x). rewrite Ep. cbn [bind].
    change (list_sum_nat (fv_width L :: us)) with (fv_width L + list_sum_nat us). set (w := fv_width L) in *.
    destruct (pos x) eqn:Ex; cbn [negb].
    + rewrite WidthMask_ones by lia. cbn [bind]. rewrite land_low by lia.
      destruct (fv_push_rep L _ true (low w x) V) as (L' & EL & WL & RL); [apply low_lt|].
      rewrite EL. cbn [bind]. rewrite shr64_Ok by lia. cbn [bind].
      specialize (IH u Ls Lx ps px lb _ (hi w x) Fs U ltac:(lia) ltac:(lia) D B).
      assert (SH : (hi w x <? 2 ^ N.of_nat (list_sum_nat us))%N = (x <? 2 ^ N.of_nat (w + list_sum_nat us))%N).
      { unfold hi. rewrite N.shiftr_div_pow2, Nat2N.inj_add, N.pow_add_r. assert (2 ^ N.of_nat w <> 0)%N by (apply N.pow_nonzero; lia).
        destruct (N.ltb_spec x (2 ^ N.of_nat w * 2 ^ N.of_nat (list_sum_nat us))).
        - apply N.ltb_lt. now apply N.div_lt_upper_bound.
        - apply N.ltb_ge. now apply N.div_le_lower_bound. }
      rewrite SH in IH. fold (hi w x). destruct (x <? _)%N.
      * destruct IH as (Ls' & ps' & px' & lb' & E & A1 & A2 & A3 & A4). rewrite E. cbn [bind fst snd].
        exists (L' :: Ls'), (p' :: ps'), px', lb'. split; [reflexivity|]. cbn [length]. split; [lia|]. split; [lia|]. split; auto.
        cbn [deep_rep]. rewrite filter_app, !map_app. cbn [filter]. rewrite Ex. cbn [map]. rewrite Ex.
        split; [auto|]. split; [auto|]. split; [exact WL|]. auto.
      * now rewrite IH.
    + assert (x = 0)%N by (unfold pos in Ex; destruct (N.ltb_spec 0 x); [discriminate|lia]). subst x.
      assert (T : (0 <? 2 ^ N.of_nat (w + list_sum_nat us))%N = true) by (apply N.ltb_lt, N.neq_0_lt_0, N.pow_nonzero; lia).
      rewrite T. exists (L :: Ls), (p' :: ps), px, lb. split; [reflexivity|]. cbn [length]. split; [lia|]. split; [lia|]. split; auto.
      cbn [deep_rep]. rewrite filter_app, map_app. cbn [filter]. rewrite Ex. rewrite app_nil_r. cbn [map]. rewrite Ex. auto.
Qed.

Lemma push_wide : forall us0 us u L0 Ls Lx ps px lb l x, Forall (fun u => 1 <= u <= 63) (us0 :: us) -> 64 <= u ->
  fv_rep L0 (map (low us0) l) true -> fv_width L0 = us0 -> length Ls = length us -> length ps = length us -> deep_rep us Ls ps (map (hi us0) l) -> bv_rep px lb ->
  if (x <? 2 ^ N.of_nat (list_sum_nat (us0 :: us)))%N then
    exists L0' Ls' ps' px' lb', dac_push (us0 :: us ++ [u]) (L0 :: Ls ++ [Lx], ps ++ [px]) x = Ok (L0' :: Ls' ++ [Lx], ps' ++ [px']) /\
      fv_rep L0' (map (low us0) (l ++ [x])) true /\ fv_width L0' = us0 /\
      length Ls' = length us /\ length ps' = length us /\ deep_rep us Ls' ps' (map (hi us0) (l ++ [x])) /\ bv_rep px' lb'
  else dac_push (us0 :: us ++ [u]) (L0 :: Ls ++ [Lx], ps ++ [px]) x = UB.
Proof.
  intros u0 us u L0 Ls Lx ps px lb l x F U V W Ll Lp D B. inversion F as [|? ? Fu Fs]. cbn [dac_push].
  rewrite WidthMask_ones by lia. cbn [bind]. rewrite land_low by lia.
  destruct (fv_push_rep L0 _ true (low u0 x) V) as (L' & EL & WL & RL); [rewrite W; apply low_lt|].
  rewrite EL. cbn [bind]. rewrite shr64_Ok by lia. cbn [bind]. fold (hi u0 x).
  pose proof (push_deep_wide us u Ls Lx ps px lb _ (hi u0 x) Fs U Ll Lp D B) as P.
  change (list_sum_nat (u0 :: us)) with (u0 + list_sum_nat us).
  assert (SH : (hi u0 x <? 2 ^ N.of_nat (list_sum_nat us))%N = (x <? 2 ^ N.of_nat (u0 + list_sum_nat us))%N).
  { unfold hi. rewrite N.shiftr_div_pow2, Nat2N.inj_add, N.pow_add_r. assert (2 ^ N.of_nat u0 <> 0)%N by (apply N.pow_nonzero; lia).
    destruct (N.ltb_spec x (2 ^ N.of_nat u0 * 2 ^ N.of_nat (list_sum_nat us))).
    - apply N.ltb_lt. now apply N.div_lt_upper_bound.
    - apply N.ltb_ge. now apply N.div_le_lower_bound. }
  rewrite SH in P. destruct (x <? _)%N.
  - destruct P as (Ls' & ps' & px' & lb' & E & A1 & A2 & A3 & A4). rewrite E. cbn [bind fst snd].
    exists L', Ls', ps', px', lb'. split; [reflexivity|]. rewrite !map_app. split; auto. split; [congruence|]. auto.
  - now rewrite P.
Qed.

Lemma pushes_wide : forall xs u0 us u L0 Ls Lx ps px lb l, Forall (fun u => 1 <= u <= 63) (u0 :: us) -> 64 <= u ->
  fv_rep L0 (map (low u0) l) true -> fv_width L0 = u0 -> length Ls = length us -> length ps = length us -> deep_rep us Ls ps (map (hi u0) l) -> bv_rep px lb ->
  (exists x, In x xs /\ (2 ^ N.of_nat (list_sum_nat (u0 :: us)) <= x)%N) ->
  foldM (dac_push (u0 :: us ++ [u])) xs (L0 :: Ls ++ [Lx], ps ++ [px]) = UB.
Proof.
  induction xs as [|y xs IH]; intros u0 us u L0 Ls Lx ps px lb l F U V W Ll Lp D B (x & I & X); [destruct I|].
  cbn [foldM]. pose proof (push_wide u0 us u L0 Ls Lx ps px lb l y F U V W Ll Lp D B) as P. destruct (N.ltb_spec y (2 ^ N.of_nat (list_sum_nat (u0 :: us)))) as [Y|Y].
  - destruct P as (L0' & Ls' & ps' & px' & lb' & E & A1 & A2 & A3 & A4 & A5 & A6). rewrite E. cbn [bind].
    apply IH with lb' (l ++ [y]); auto. exists x. split; auto. destruct I; [subst; lia|auto].
  - now rewrite P.
Qed.

Lemma build_wide : forall us u l, Forall (fun v => (v < 2 ^ 63)%N) l -> l <> [] -> Forall (fun u => 1 <= u <= 63) us -> 64 <= u ->
  list_sum_nat us < max_bits l -> dac_build (us ++ [u]) l = UB.
Proof.
  intros us u l F Hl Fu U Hs. 
  assert (R : exists cf, cummulative_frequency_list l = Ok cf /\ dac_reserve cf (us ++ [u]) 0 = Ok tt).
  { destruct (cummulative_frequency_list_spec l F) as (cf & E & L & _). exists cf. split; auto.
    destruct (cumulative_pos l cf F E) as (_ & P). rewrite <- L in P. destruct (reserve_total cf (us ++ [u]) 0 P) as [(A & _)|[(A & j & B & C & _)|(A & j & B & C & D)]]; auto.
    - exfalso. rewrite app_length in B. cbn in B. destruct (Nat.lt_ge_cases j (length us)).
      + rewrite app_nth1 in C by auto. rewrite Forall_forall in Fu. assert (In (nth j us 1) us) by now apply nth_In. specialize (Fu _ H0). lia.
      + replace j with (length us) in C by lia. rewrite nth_middle in C. lia.
    - exfalso. rewrite app_length in B. cbn in B. rewrite firstn_app in D. replace (j - length us) with 0 in D by lia. rewrite firstn_O, app_nil_r in D.
      pose proof (firstn_sum_le us j). lia. }
  destruct R as (cf & Ecf & Er). destruct us as [|u0 us].
  - cbn [app] in *. unfold dac_build. rewrite Ecf. cbn [bind]. rewrite Er. cbn [bind length repeat map]. destruct l as [|x l]; [congruence|].
    cbn [foldM dac_push]. now rewrite wide_mask.
  - cbn [app] in *. unfold dac_build. rewrite Ecf. cbn [bind]. rewrite Er. cbn [bind].
    replace (map fv_make (u0 :: us ++ [u]), repeat bv_default (length (us ++ [u]))) with (fv_make u0 :: map fv_make us ++ [fv_make u], repeat bv_default (length us) ++ [bv_default]).
    2:{ rewrite app_length. cbn [map length]. rewrite map_app, repeat_app. reflexivity. }
    destruct (start_rep u0 us Fu) as (S1 & S2 & S3 & S4 & S5). cbn [fst snd] in *.
    rewrite (pushes_wide l u0 us u (fv_make u0) (map fv_make us) (fv_make u) _ _ [] []); auto.
    + apply bv_default_rep.
    + assert (X : exists v, In v l /\ list_sum_nat (u0 :: us) < bits_needed v).
      { clear - Hs. unfold max_bits in Hs. set (k := list_sum_nat (u0 :: us)) in *. clearbody k. induction l as [|x l IH]; simpl in Hs; [lia|].
        destruct (Nat.lt_ge_cases k (bits_needed x)); [exists x; simpl; auto|]. destruct IH as (v & A & B); [lia|]. exists v. simpl. auto. }
      destruct X as (v & A & B). exists v. split; auto. destruct (bits_needed_spec v) as (_ & _ & B3). apply B3; auto.
      inversion Fu; subst. change (list_sum_nat (u0 :: us)) with (u0 + list_sum_nat us). lia.
Qed.

(** ** statements *)
Lemma removelast_last : forall (units : list nat), units <> [] -> units = removelast units ++ [last units 0].
Proof. intros. now apply app_removelast_last. Qed.

Lemma starts_iff : forall units mb, units <> [] -> (starts_below units mb <-> list_sum_nat (removelast units) < mb).
Proof.
  intros units mb Hn. pose proof (removelast_last units Hn) as E. split.
  - intros S. rewrite E in S. specialize (S (length (removelast units))). rewrite app_length in S. cbn [length] in S.
    rewrite firstn_app, Nat.sub_diag, firstn_O, app_nil_r, firstn_all in S. apply S. lia.
  - intros S k Hk. rewrite E. rewrite E, app_length in Hk. cbn in Hk. rewrite firstn_app. replace (k - _) with 0 by lia. rewrite firstn_O, app_nil_r.
    pose proof (firstn_sum_le (removelast units) k). lia.
Qed.

Lemma dac_every : forall units l, l <> [] -> units <> [] ->
  (forallb (fun v => (v <? 2 ^ 63)%N) l = false -> dac_of_list l units = UB) /\
  (forallb (fun v => (v <? 2 ^ 63)%N) l = true ->
    (Forall (fun u => 1 <= u <= 63) units -> list_sum_nat (removelast units) < max_bits l ->
      exists d, dac_of_list l units = Ok d /\ dac_size d = Ok (length l) /\
        (forall i, dac_at d i = match nth_error l i with Some x => Ok (x mod 2 ^ N.of_nat (list_sum_nat units))%N | None => Throw end) /\
        (forall i, i < length l -> exists k, dac_depth d i = Ok k /\ k < length units /\
          (k + 1 < length units -> (nth i l 0 < 2 ^ N.of_nat (list_sum_nat (firstn (S k) units)))%N) /\
          forall j, j < k -> (2 ^ N.of_nat (list_sum_nat (firstn (S j) units)) <= nth i l 0)%N)) /\
    (forall j, j < length units -> nth j units 1 = 0 -> Forall (fun u => 1 <= u) (firstn j units) -> list_sum_nat (firstn j units) < max_bits l -> dac_of_list l units = Throw) /\
    (forall j, j < length units -> Forall (fun u => 1 <= u) (firstn j units) -> max_bits l <= list_sum_nat (firstn j units) -> dac_of_list l units = UB) /\
    (Forall (fun u => 1 <= u) units -> list_sum_nat (removelast units) < max_bits l -> 64 <= last units 0 -> dac_of_list l units = UB)).
Proof.
  intros units l Hl Hu. assert (EQ : dac_of_list l units = dac_build units l).
  { unfold dac_of_list, dac_of_list_gen. destruct l; [congruence|]. destruct units; [congruence|]. reflexivity. }
  rewrite EQ. split.
  - intros E. destruct units; [congruence|]. unfold dac_build. rewrite cumulative_exact, E. reflexivity.
  - intros E. apply forallb_below in E. destruct (cummulative_frequency_list_spec l E) as (cf & Ecf & L & _). destruct (cumulative_pos l cf E Ecf) as (_ & P). rewrite <- L in P.
    assert (R : forall o, dac_reserve cf units 0 = o -> (o = UB \/ o = Throw) -> dac_build units l = match o with UB => UB | _ => Throw end).
    { intros o Eo O. destruct units; [congruence|]. unfold dac_build. rewrite Ecf. cbn [bind]. destruct O as [O|O]; rewrite O in *; rewrite Eo; reflexivity. }
    assert (LE : forall a b, a <= b -> list_sum_nat (firstn a units) <= list_sum_nat (firstn b units)).
    { intros a b Hab. replace (firstn a units) with (firstn a (firstn b units)) by (rewrite firstn_firstn; f_equal; lia). apply firstn_sum_le. }
    assert (NZ : forall a b, Forall (fun u => 1 <= u) (firstn b units) -> a < b -> a < length units -> nth a units 1 <> 0).
    { intros a b Fb Hab Ha. rewrite Forall_forall in Fb. assert (I : In (nth a units 1) (firstn b units)).
      { rewrite <- (firstn_skipn b units) at 1. rewrite app_nth1 by (rewrite firstn_length; lia). apply nth_In. rewrite firstn_length. lia. }
      specialize (Fb _ I). lia. }
    split; [|split; [|split]].
    + intros Fu S. destruct (build_ok units l E Hu Fu) as (d & Ed & O); [now apply starts_iff|]. exists d. split; auto. pose proof (dac_size_ok _ _ _ O) as Z. split; auto.
      split; [|intros i Hi; now apply (depth_any d units l i)]. intros i. unfold dac_at. rewrite Z. cbn [bind]. destruct (Nat.leb_spec (length l) i).
      * now rewrite (proj2 (nth_error_None l i)).
      * assert (B64 : (nth i l 0 < 2 ^ 64)%N).
        { rewrite Forall_forall in E. apply N.lt_trans with (2 ^ 63)%N; [apply E, nth_In; auto|reflexivity]. }
        rewrite (get_mod d units l i O H B64).
        now rewrite (nth_error_nth' l 0%N) by auto.
    + intros j Hj Z Fj Sj. destruct (reserve_total cf units 0 P) as [(A & B & _)|[(A & _)|(A & k & B & C & D)]].
      * exfalso. apply (NZ j (length units)); auto. now rewrite firstn_all.
      * now apply (R Throw); auto.
      * exfalso. cbn [Nat.add] in D. destruct (Nat.lt_ge_cases j k); [apply (NZ j k); auto|]. pose proof (LE k j ltac:(lia)). lia.
    + intros j Hj Fj Sj. destruct (reserve_total cf units 0 P) as [(A & B & C)|[(A & k & B & C & D & G)|(A & k & B & C & D)]].
      * exfalso. specialize (C j Hj). lia.
      * exfalso. cbn [Nat.add] in G. destruct (Nat.lt_ge_cases k j); [apply (NZ k j); auto|]. pose proof (LE j k ltac:(lia)). lia.
      * now apply (R UB); auto.
    + intros Fu S W. rewrite (removelast_last units Hu). apply build_wide; auto.
      rewrite Forall_forall in *. intros u I. split; [apply Fu; rewrite (removelast_last units Hu); apply in_or_app; auto|].
      pose proof (In_le_sum _ _ I). pose proof (max_bits_le63 l ltac:(now rewrite Forall_forall)). lia.
Qed.

(** the first level that is empty or starts where no value reaches *)
Lemma bad_level : forall units t mb, 
  (Forall (fun u => 1 <= u) units /\ forall k, k < length units -> t + list_sum_nat (firstn k units) < mb) \/
  exists j, j < length units /\ Forall (fun u => 1 <= u) (firstn j units) /\ (mb <= t + list_sum_nat (firstn j units) \/ t + list_sum_nat (firstn j units) < mb /\ nth j units 1 = 0).
Proof.
  induction units as [|u us IH]; intros t mb; [left; split; auto; cbn [length]; intros; lia|].
  destruct (Nat.lt_ge_cases t mb) as [T|T]; [|right; exists 0; cbn; split; [lia|]; split; auto; left; lia].
  destruct (Nat.eq_dec u 0) as [->|U]; [right; exists 0; cbn; split; [lia|]; split; auto; right; lia|].
  destruct (IH (t + u) mb) as [(A & B)|(j & A & B & C)].
  - left. split; [constructor; auto; lia|]. intros [|k] Hk; [cbn; lia|]. cbn [firstn length] in *. change (list_sum_nat (u :: firstn k us)) with (u + list_sum_nat (firstn k us)). specialize (B k). lia.
  - right. exists (S j). cbn [firstn length nth]. change (list_sum_nat (u :: firstn j us)) with (u + list_sum_nat (firstn j us)). split; [lia|]. split; [constructor; auto; lia|]. lia.
Qed.

Lemma dac_defined : forall units l, l <> [] -> units <> [] ->
  ((exists d, dac_of_list l units = Ok d) <->
   Forall (fun v => (v < 2 ^ 63)%N) l /\ Forall (fun u => 1 <= u <= 63) units /\ list_sum_nat (removelast units) < max_bits l).
Proof.
  intros units l Hl Hu. destruct (dac_every units l Hl Hu) as [A B]. split.
  - intros (d & E). destruct (forallb _ l) eqn:X; [|rewrite A in E by auto; discriminate]. destruct (B eq_refl) as (B1 & B2 & B3 & B4). apply forallb_below in X. split; auto.
    destruct (bad_level units 0 (max_bits l)) as [(C & D)|(j & C & D & [G|[G1 G2]])].
    + apply starts_iff in D; auto. split; auto. destruct (Nat.lt_ge_cases (last units 0) 64) as [W|W]; [|rewrite B4 in E by auto; discriminate].
      pose proof (removelast_last units Hu) as R. pose proof (max_bits_le63 l X). rewrite Forall_forall in *. intros u I. split; [auto|].
      rewrite R in I. apply in_app_or in I. destruct I as [I|[I|[]]]; [|lia]. pose proof (In_le_sum _ _ I). lia.
    + rewrite (B3 j) in E by auto. discriminate.
    + rewrite (B2 j) in E by auto. discriminate.
  - intros (F & Fu & S). assert (X : forallb (fun v => (v <? 2 ^ 63)%N) l = true).
    { apply forallb_forall. intros v I. rewrite Forall_forall in F. apply N.ltb_lt. auto. }
    destruct (B X) as (B1 & _). destruct (B1 Fu S) as (d & E & _). eauto.
Qed.

Lemma dac_no_widths : forall l, (N.of_nat (length l) < 2 ^ 57)%N -> dac_of_list l [] = match l with [] => Ok (Dac None [] [] []) | _ => UB end.
Proof. intros l H. unfold dac_of_list, dac_of_list_gen. rewrite split_total by auto. destruct l; reflexivity. Qed.
