(** Proofs about CHTModel: keys of 61 to 63 bits and the limits of the parameters *)
From Coq Require Import List NArith ZArith Arith Bool Lia.
From Verif Require Import Base Spec Spec4 Spec15 BitUtilModel BitUtilProof FitVectorModel FitVectorProof HashModel HashProof XorMapProof CHTModel CHTRing CHTShift CHTWord CHTProof CHTInsert CHTMain CHTResize CHTRun.
Import ListNotations.
Local Open Scope nat_scope.

Lemma wide_get : forall v i, 64 <= fv_width v -> fv_get v i = UB.
Proof. intros v i H. unfold fv_get, bits_read, WidthMask, shl64. rewrite (proj2 (N.ltb_ge _ _)) by lia. reflexivity. Qed.
Lemma wide_set : forall v i x, 64 <= fv_width v -> fv_set v i x = UB.
Proof. intros v i x H. unfold fv_set, bits_write, WidthMask, shl64. rewrite (proj2 (N.ltb_ge _ _)) by lia. reflexivity. Qed.
(** a hash of 64 bits or more is undefined: the table of multipliers ends at 63 *)
Lemma hash_ub : forall kb x, 64 <= kb -> sm_hash (N.of_nat kb) x = UB.
Proof.
  intros kb x H. unfold sm_hash, sm_hash_, xs_hash. destruct (xs_shifts (N.of_nat kb) + N.of_nat 0 <? 64)%N; [|reflexivity]. cbn [bind]. unfold mh_hash.
  rewrite (proj2 (lget_UB _ prime_table (N.to_nat (N.of_nat kb)))); [reflexivity|]. change (length prime_table) with 64. lia.
Qed.
(** a computation that ends is defined or not, without exception *)
Definition okub {A} (r : res A) : Prop := match r with Ok _ | UB => True | _ => False end.
Lemma okub_bind : forall A B (m : res A) (f : A -> res B), okub m -> (forall a, m = Ok a -> f a = UB) -> bind m f = UB.
Proof. intros A B [a| | |] f H K; simpl in *; try tauto. now apply K. Qed.
Lemma okub_lget : forall A (l : list A) i, okub (lget l i).
Proof. intros. unfold lget. now destruct (nth_error l i). Qed.
Lemma okub_b : forall A B (m : res A) (f : A -> res B), okub m -> (forall a, okub (f a)) -> okub (bind m f).
Proof. intros A B [a| | |] f H K; simpl in *; try tauto. apply K. Qed.
Lemma okub_sm : forall w k x, okub (sm_ihash_ w k x).
Proof.
  intros. unfold sm_ihash_, mh_ihash. apply okub_b; [apply okub_b; [apply okub_lget|]; intros; apply okub_b; [apply okub_lget|]; intros; exact I|].
  intros. unfold xs_ihash, xs_hash. destruct (_ <? 64)%N; exact I.
Qed.
Lemma okub_ihash : forall w x, okub (sm_ihash w x).
Proof. intros. unfold sm_ihash. apply okub_b; [apply okub_sm|]. intros. apply okub_b; [apply okub_sm|]. intros. apply okub_sm. Qed.
Lemma okub_shl : forall a b, okub (shl64 a b).
Proof. intros. unfold shl64. now destruct (_ <? 64)%N. Qed.

Lemma okub_locate : forall t k, okub (cht_locate t k).
Proof.
  assert (O : forall w k x, okub (sm_hash_ w k x)).
  { intros. unfold sm_hash_, mh_hash. apply okub_b; [unfold xs_hash; destruct (_ <? 64)%N; exact I|]. intros. apply okub_b; [apply okub_lget|]. intros. apply okub_b; [apply okub_lget|]. intros. exact I. }
  intros t k. unfold cht_locate, sm_hash. apply okub_b; [apply okub_b; [apply O|]; intros; apply okub_b; [apply O|]; intros; apply O|].
  intros. apply okub_b; [unfold shr64; destruct (_ <? 64)%N; exact I|]. intros. apply okub_b; [apply okub_shl|]. intros. exact I.
Qed.

Section Wide.
Variables (VB L : nat).
Definition fresh (kb bb VW : nat) : cht :=
  CHT kb (2 ^ bb) bb (2 ^ bb * L / 100) (2 ^ bb * (L - 1) / 400 + 1) (fv_sized (kb - bb + 4) (2 ^ bb)) (fv_sized VW (2 ^ bb)) (kb - bb) 0 0.
Lemma start_fresh : forall kb bb VW, VB = 0 \/ VB = VW -> bb <= 60 -> cht_start VB L kb (2 ^ bb) VW = Ok (fresh kb bb VW).
Proof.
  intros kb bb VW HVB Hbb. assert (Ct : N.to_nat (ctz64 (N.of_nat (2 ^ bb))) = bb) by (rewrite ctz_pow2 by lia; lia).
  unfold cht_start, cht_set_value_width, cht_make. rewrite Ct. cbn [ch_size Nat.eqb negb orb ch_key_bits ch_bucket ch_bucket_bits ch_max ch_min ch_arr ch_values ch_quo_bits ch_used].
  destruct (Nat.eqb_spec VB 0) as [Z|Z]; [reflexivity|]. destruct HVB as [E|E]; [lia|]. subst VW. reflexivity.
Qed.
Lemma width_sized : forall w n, fv_width (fv_sized w n) = w.
Proof. reflexivity. Qed.
Lemma locate_ok : forall t k, ch_key_bits t <= 63 -> ch_bucket_bits t <= 60 -> (k < 2 ^ N.of_nat (ch_key_bits t))%N ->
  exists h, (h < 2 ^ N.of_nat (ch_key_bits t))%N /\ cht_locate t k = Ok (N.shiftr h (N.of_nat (ch_bucket_bits t)), N.to_nat (h mod 2 ^ N.of_nat (ch_bucket_bits t))).
Proof.
  intros t k Hkb Hbb Hk. destruct (hashf_ok (ch_key_bits t) Hkb k Hk) as (E & Hh & _). exists (hashf (ch_key_bits t) k). split; auto.
  unfold cht_locate. rewrite E. cbn [bind]. unfold shr64, shl64, wshl, wrap64. rewrite (proj2 (N.ltb_lt _ _)) by lia. cbn [bind]. rewrite N.shiftl_1_l, N.mod_small by (apply N.pow_lt_mono_r; lia).
  assert (P : (0 < 2 ^ N.of_nat (ch_bucket_bits t))%N) by (apply N.neq_0_lt_0, N.pow_nonzero; lia).
  assert (P2 : (2 ^ N.of_nat (ch_bucket_bits t) < 2 ^ 64)%N) by (apply N.pow_lt_mono_r; lia).
  assert (W : wsub (2 ^ N.of_nat (ch_bucket_bits t)) 1 = N.ones (N.of_nat (ch_bucket_bits t))).
  { unfold wsub. rewrite N.ones_equiv, <- N.sub_1_r. replace (2 ^ N.of_nat (ch_bucket_bits t) + 2 ^ 64 - 1)%N with (2 ^ N.of_nat (ch_bucket_bits t) - 1 + 1 * 2 ^ 64)%N by lia.
    rewrite N.mod_add by (apply N.pow_nonzero; lia). apply N.mod_small. lia. }
  rewrite W, N.land_ones. reflexivity.
Qed.
(** a table whose words would have 64 bits or more *)
Lemma wide_table : forall t k v fuel, 64 <= ch_key_bits t \/ 64 <= fv_width (ch_arr t) ->
  cht_get t k = UB /\ (ch_used t <> ch_max t -> cht_set_fuel VB L (S fuel) t k v = UB).
Proof.
  intros t k v fuel Hw. assert (LL : cht_locate t k = UB \/ exists r, cht_locate t k = Ok r /\ 64 <= fv_width (ch_arr t)).
  { destruct (Nat.le_gt_cases 64 (ch_key_bits t)) as [Ge|Lt]; [left; unfold cht_locate; now rewrite hash_ub|]. destruct Hw as [|Hw]; [lia|].
    pose proof (okub_locate t k) as O. destruct (cht_locate t k) as [r| | |]; simpl in O; try tauto. eauto. }
  split.
  - unfold cht_get. destruct LL as [E|((q & i) & E & W)]; rewrite E; cbn [bind]; auto. now rewrite wide_get.
  - intros Hm. cbn [cht_set_fuel]. unfold cht_is_filled. rewrite (proj2 (Nat.eqb_neq _ _)) by auto. cbn [bind]. unfold cht_insert. destruct LL as [E|((q & i) & E & W)]; rewrite E; cbn [bind]; auto.
    unfold to_cluster_head. now rewrite wide_get.
Qed.
Lemma set_zero : forall n i v, fv_set (fv_sized 0 n) i v = UB.
Proof. intros n i v. unfold fv_set, fv_sized, fv_resize, fv_make, fv_word_size. cbn [fv_width fv_words]. rewrite orb_true_r. unfold bits_write. rewrite Nat.mul_0_r. reflexivity. Qed.
(** values of no bits, or of 64 bits and more *)
Lemma bad_values : forall kb bb VW k v fuel, 1 <= bb <= 60 -> keys_fit kb bb -> 1 <= 2 ^ bb * L / 100 -> (k < 2 ^ N.of_nat kb)%N -> VW = 0 \/ 64 <= VW ->
  cht_set_fuel VB L (S fuel) (fresh kb bb VW) k v = UB.
Proof.
  intros kb bb VW k v fuel Hbb (K1 & K2) Hm Hk Hv. set (t := fresh kb bb VW). cbn [cht_set_fuel]. unfold cht_is_filled. change (ch_used t) with 0. change (ch_max t) with (2 ^ bb * L / 100).
  rewrite (proj2 (Nat.eqb_neq _ _)) by lia. cbn [bind]. unfold cht_insert. destruct (locate_ok t k K1 (proj2 Hbb) Hk) as (h & Hh & E). rewrite E. cbn [bind]. clear E.
  change (ch_bucket_bits t) with bb. change (ch_key_bits t) with kb in Hh. set (i := N.to_nat (h mod 2 ^ N.of_nat bb)).
  assert (Hi : i < 2 ^ bb). { unfold i. assert (P : (h mod 2 ^ N.of_nat bb < 2 ^ N.of_nat bb)%N) by (apply N.mod_lt, N.pow_nonzero; lia). change 2%N with (N.of_nat 2) in P at 2. rewrite <- Nnat.Nat2N.inj_pow in P. lia. }
  assert (R0 : fv_rep (ch_arr t) (repeat 0%N (2 ^ bb)) true) by (apply fv_sized_zero; lia).
  assert (G0 : fv_get (ch_arr t) i = Ok 0%N). { rewrite (fv_get_rep _ _ _ _ R0) by (rewrite repeat_length; exact Hi). now rewrite nth_repeat. }
  unfold to_cluster_head. rewrite G0. cbn [bind]. change (is_shifted 0) with false. cbv iota. cbn [bind]. change (is_occupied 0) with false. cbv iota. cbn [bind].
  unfold cht_insert_at. rewrite G0. cbn [bind]. change (is_null 0) with true. cbv iota. cbn [bind]. try rewrite G0. cbn [bind].
  assert (Hq : (N.shiftr h (N.of_nat bb) < 2 ^ N.of_nat (kb - bb))%N).
  { rewrite N.shiftr_div_pow2. apply N.div_lt_upper_bound; [apply N.pow_nonzero; lia|]. rewrite <- N.pow_add_r. eapply N.lt_le_trans; [exact Hh|]. apply N.pow_le_mono_r; lia. }
  assert (Eq : shl64 (N.shiftr h (N.of_nat bb)) 4 = Ok (N.shiftl (N.shiftr h (N.of_nat bb)) 4)).
  { unfold shl64, wshl, wrap64. change (4 <? 64)%N with true. cbv iota. f_equal. apply N.mod_small. rewrite N.shiftl_mul_pow2.
    assert (2 ^ N.of_nat (kb - bb) <= 2 ^ 59)%N by (apply N.pow_le_mono_r; lia). change (2 ^ 64)%N with (2 ^ 59 * 2 ^ 5)%N. change (2 ^ 4)%N with 16%N. change (2 ^ 5)%N with 32%N. lia. }
  rewrite Eq. cbn [bind]. change (is_occupied 0) with false. cbn [negb]. change (N.lor 0 kOccupiedMask) with 1%N. unfold put_word at 1.
  assert (Wt : fv_width (ch_arr t) = kb - bb + 4) by reflexivity.
  assert (P4 : (16 <= 2 ^ N.of_nat (kb - bb + 4))%N) by (change 16%N with (2 ^ 4)%N; apply N.pow_le_mono_r; lia).
  destruct (fv_set_rep _ _ _ i 1%N R0) as (a1 & E1 & W1 & R1); [rewrite repeat_length; exact Hi|rewrite Wt; lia|]. rewrite E1. cbn [bind with_arr ch_arr].
  assert (Li : i < length (upd (repeat 0%N (2 ^ bb)) i 1%N)) by (rewrite upd_length, repeat_length; exact Hi).
  rewrite (fv_get_rep _ _ _ _ R1) by exact Li. cbn [bind]. rewrite nth_upd, repeat_length, Nat.eqb_refl, (proj2 (Nat.ltb_lt _ _) Hi). cbn [andb]. change (N.land 1 kOccupiedMask) with 1%N. rewrite N.lor_0_r.
  unfold put_word. cbn [with_arr ch_arr].
  destruct (fv_set_rep _ _ _ i (N.lor 1 (N.shiftl (N.shiftr h (N.of_nat bb)) 4)) R1 Li) as (a2 & E2 & _ & _).
  { rewrite W1, Wt. apply lor_lt; [lia|]. rewrite N.shiftl_mul_pow2. replace (N.of_nat (kb - bb + 4)) with (N.of_nat (kb - bb) + 4)%N by lia. rewrite N.pow_add_r. apply N.mul_lt_mono_pos_r; [reflexivity|exact Hq]. }
  rewrite E2. cbn [bind]. unfold put_value. cbn [with_arr with_counts ch_values].
  destruct Hv as [->|Hv]; [|rewrite wide_set by exact Hv; reflexivity].
  change (ch_values t) with (fv_sized 0 (2 ^ bb)). rewrite set_zero. reflexivity.
Qed.

Section Shrink.
Variables (kb VW : nat).
Hypothesis Hkb : kb <= 63.
Hypothesis HL : 1 <= L <= 100.
Hypothesis HVW : 1 <= VW <= 63.
Hypothesis HVB : VB = 0 \/ VB = VW.
Notation rep := (rep kb VW L).
(** resizing to too few buckets fails at the first entry moved, or leaves a table that cannot be used *)
Lemma shrink : forall set t P bb, rep t P -> bb <= 60 -> (forall k v, set (fresh kb bb VW) k v = UB) ->
  cht_resize VB L set t (2 ^ bb) = UB \/ cht_resize VB L set t (2 ^ bb) = Ok (fresh kb bb VW).
Proof.
  intros set t P bb (l & vs & H & G0 & _) Hbb Hset. pose proof (g_base _ _ _ _ _ _ _ G0) as G. unfold cht_resize. pose proof (start_fresh kb bb VW HVB Hbb) as E. unfold cht_start in E. rewrite (g_kb _ _ _ _ _ _ _ G), (a_vw _ _ _ _ (g_a _ _ _ _ _ _ _ G)), E. cbn [bind].
  cbn [move_all]. destruct (Nat.eq_dec (ch_used t) 0) as [U|U]; [right; now rewrite U|]. left. rewrite (proj2 (Nat.ltb_lt _ _)) by lia.
  destruct (first_cluster kb VB VW L Hkb HL HVW HVB t l vs H G U) as (c & Hc & Oc & Sc & Nc). pose proof (a_B _ _ _ _ (g_a _ _ _ _ _ _ _ G)) as HB. set (B := ch_bucket t) in *.
  replace 0 with (idx B 0%Z) at 1 by (unfold idx; rewrite Z.mod_0_l by lia; reflexivity).
  assert (K1 : skip_to_cluster (S B) t (idx B 0%Z) = Ok (idx B c)).
  { apply (skip_ok kb VW L Hkb HL t l vs H G set (fun _ => False) ltac:(tauto) 0%Z c Oc Sc (Z.to_nat (c - 0))); auto; lia. }
  rewrite K1. cbn [bind]. cbn [move_cluster]. pose proof (get_arr _ _ _ _ (g_a _ _ _ _ _ _ _ G) c) as Ga. fold B in Ga. rewrite Ga. cbn [bind].
  pose proof (g_nodel _ _ _ _ _ _ _ G0 c) as Nd. unfold fD in Nd. cbv zeta.
  match goal with |- bind (bind ?q _) _ = UB => set (qq := q) end.
  assert (Oq : okub qq). { unfold qq. destruct (is_continuation (wd l c)); [exact I|]. destruct (is_occupied (wd l c)); simpl; exact I. }
  rewrite (okub_bind _ _ qq); [reflexivity|exact Oq|]. intros (qs & f) _. rewrite is_deleted_eq, Nd. destruct f as [f|]; [|reflexivity].
  rewrite (quo_at _ _ _ _ (g_a _ _ _ _ _ _ _ G)). cbn [bind].
  match goal with |- bind (bind ?q _) _ = UB => rewrite (okub_bind _ _ q); [reflexivity|apply okub_shl|] end. intros x _.
  apply okub_bind; [apply okub_ihash|]. intros k _. pose proof (get_val _ _ _ _ (g_a _ _ _ _ _ _ _ G) c) as Gv. fold B in Gv. rewrite Gv. cbn [bind]. apply Hset.
Qed.
Lemma shrink_run : forall bb ops n k v, L <= 99 -> bb <= 60 -> kb <= 59 + bb -> 1 <= 2 ^ bb * L / 100 -> (N.of_nat (length ops) < 2 ^ 50)%N -> Forall (map_op_in kb VW) ops -> Forall (rooms kb L) ops ->
  distinct_keys ops < n -> (N.of_nat n < 2 ^ 50)%N -> n * 99 / L < 2 ^ (kb - 60) -> cht_run VB L kb (2 ^ bb) VW (ops ++ [MapReserve n; MapSet k v]) = UB.
Proof.
  intros bb ops n k v H99 Hbb Hw Hm Hlen Ho Hr Hd Hn Hsm. destruct (run_ok kb VB VW L Hkb HL HVW HVB bb ops Hbb Hw Hm Hlen Ho Hr) as (t & E & R & S & _).
  unfold cht_run in *. apply bind_Ok_inv in E. destruct E as (t0 & E0 & E). rewrite E0. cbn [bind]. rewrite foldM_app, E. cbn [bind foldM cht_step]. unfold cht_reserve, cht_reserve_with.
  rewrite (proj2 (Nat.leb_gt _ _)) by lia. change (2 ^ 50)%N with 1125899906842624%N in Hn.
  destruct (reserve_bucket kb VB VW L Hkb HL HVW HVB n) as (b1 & Eb & Hb1 & Hlt & Hge); [lia|change (2 ^ 52)%N with 4503599627370496%N; lia|]. apply bind_Ok_inv in Eb. destruct Eb as (bn & Eb & En). injection En as En. cbv zeta. rewrite Eb. cbn [bind]. rewrite En.
  assert (Hn1 : kb > 59 + b1). { destruct (Nat.eq_dec (n * 99 / L) 0) as [Z0|Z0]. { apply Nat.div_small_iff in Z0; lia. }
    destruct Hge as (B1 & Hge); [lia|]. assert (2 ^ (b1 - 1) < 2 ^ (kb - 60)) as Q by lia. apply Nat.pow_lt_mono_r_iff in Q; lia. }
  pose proof (reserve_max kb VB VW L Hkb HL HVW HVB n b1 ltac:(lia) Hlt) as Hmx.
  assert (WT : forall f k v, cht_set_fuel VB L (Datatypes.S f) (fresh kb b1 VW) k v = UB).
  { intros f k' v'. apply wide_table; [right; cbn [fresh ch_arr]; rewrite width_sized; lia|cbn [fresh ch_used ch_max]; lia]. }
  destruct (shrink (cht_set VB L) t (mapP ops) b1 R Hb1) as [E1|E1]; [intros; apply WT|now rewrite E1|].
  rewrite E1. cbn [bind]. unfold cht_set. now rewrite WT.
Qed.
End Shrink.

(** the first store *)
Lemma first_set : forall kb VW bb k v, 1 <= L <= 99 -> VB = 0 \/ VB = VW -> 1 <= bb <= 60 -> 1 <= 2 ^ bb * L / 100 -> (k < 2 ^ N.of_nat kb)%N -> (v < 2 ^ N.of_nat VW)%N ->
  (keys_fit kb bb /\ 1 <= VW <= 63 -> exists t, cht_run VB L kb (2 ^ bb) VW [MapSet k v] = Ok t) /\
  (~ (keys_fit kb bb /\ 1 <= VW <= 63) -> cht_run VB L kb (2 ^ bb) VW [MapSet k v] = UB).
Proof.
  intros kb VW bb k v HL HVB Hbb Hm Hk Hv. split.
  - intros ((K1 & K2) & HVW). destruct (run_ok kb VB VW L K1 ltac:(lia) HVW HVB bb [MapSet k v] (proj2 Hbb) ltac:(lia) Hm) as (t & E & _); eauto; [reflexivity|repeat constructor; auto|repeat constructor].
  - intros No. unfold cht_run. rewrite (start_fresh kb bb VW HVB (proj2 Hbb)). cbn [bind foldM cht_step]. unfold cht_set.
    destruct (Nat.le_gt_cases 64 (Nat.max kb (kb - bb + 4))) as [W|W].
    + rewrite (proj2 (wide_table (fresh kb bb VW) k v 3 ltac:(cbn [fresh ch_key_bits ch_arr]; rewrite width_sized; lia))); [reflexivity|cbn [fresh ch_used ch_max]; lia].
    + rewrite bad_values; auto; unfold keys_fit in *; lia.
Qed.
End Wide.

Lemma fits_rooms : forall kb L o, L <= 99 -> reserve_fits kb L o -> rooms kb L o.
Proof. intros kb L [k v|n] HL H; simpl in *; auto. unfold room. destruct H as [H|[H|H]]; auto. Qed.
Lemma wide_map : forall kb VB VW L bb ops, keys_fit kb bb -> 1 <= L <= 99 -> 1 <= VW <= 63 -> VB = 0 \/ VB = VW ->
  1 <= bb <= 60 -> 1 <= 2 ^ bb * L / 100 -> (N.of_nat (length ops) < 2 ^ 50)%N -> Forall (map_op_in kb VW) ops -> Forall (reserve_fits kb L) ops ->
  exists t, cht_run VB L kb (2 ^ bb) VW ops = Ok t /\ (forall k, (k < 2 ^ N.of_nat kb)%N -> cht_get t k = Ok (last_set k ops)) /\ ch_size t = distinct_keys ops.
Proof. intros kb VB VW L bb ops (K1 & K2) HL HVW HVB Hbb Hm Hn Ho Hr. apply map_correct_w; auto; try lia. apply Forall_impl with (2 := Hr). intros. now apply fits_rooms. Qed.
Lemma wide_shrink : forall VB L kb VW bb ops n k v, keys_fit kb bb -> 1 <= L <= 99 -> 1 <= VW <= 63 -> VB = 0 \/ VB = VW ->
  1 <= bb <= 60 -> 1 <= 2 ^ bb * L / 100 -> (N.of_nat (length ops) < 2 ^ 50)%N -> Forall (map_op_in kb VW) ops -> Forall (reserve_fits kb L) ops ->
  distinct_keys ops < n -> (N.of_nat n < 2 ^ 50)%N -> ~ reserve_fits kb L (MapReserve n) -> cht_run VB L kb (2 ^ bb) VW (ops ++ [MapReserve n; MapSet k v]) = UB.
Proof.
  intros VB L kb VW bb ops n k v (K1 & K2) HL HVW HVB Hbb Hm Hlen Ho Hr Hd Hn No. apply shrink_run; auto; try lia; [apply Forall_impl with (2 := Hr); intros; apply fits_rooms; [lia|auto]|]. unfold reserve_fits in No.
  destruct (Nat.lt_ge_cases (n * 99 / L) (2 ^ (kb - 60))) as [|Ge]; auto. exfalso. apply No. auto.
Qed.
Lemma first_get : forall VB L kb VW bb k, 1 <= L <= 99 -> VB = 0 \/ VB = VW -> 1 <= bb <= 60 -> (k < 2 ^ N.of_nat kb)%N ->
  (keys_fit kb bb -> (do t <- cht_start VB L kb (2 ^ bb) VW; cht_get t k) = Ok None) /\ (~ keys_fit kb bb -> (do t <- cht_start VB L kb (2 ^ bb) VW; cht_get t k) = UB).
Proof.
  intros VB L kb VW bb k HL HVB Hbb Hk. rewrite (start_fresh VB L kb bb VW HVB (proj2 Hbb)). cbn [bind]. split.
  - intros (K1 & K2). set (t := fresh L kb bb VW). unfold cht_get. destruct (locate_ok t k K1 (proj2 Hbb) Hk) as (h & Hh & E). rewrite E. cbn [bind]. clear E. change (ch_bucket_bits t) with bb.
    set (i := N.to_nat (h mod 2 ^ N.of_nat bb)).
    assert (Hi : i < 2 ^ bb). { unfold i. assert (P : (h mod 2 ^ N.of_nat bb < 2 ^ N.of_nat bb)%N) by (apply N.mod_lt, N.pow_nonzero; lia). change 2%N with (N.of_nat 2) in P at 2. rewrite <- Nnat.Nat2N.inj_pow in P. lia. }
    assert (R0 : fv_rep (ch_arr t) (repeat 0%N (2 ^ bb)) true) by (apply fv_sized_zero; lia).
    rewrite (fv_get_rep _ _ _ _ R0) by (rewrite repeat_length; exact Hi). rewrite nth_repeat. reflexivity.
  - intros No. apply (wide_table 0 L _ k 0 0). unfold keys_fit in No. cbn [fresh ch_key_bits ch_arr]. rewrite width_sized. lia.
Qed.
