(** CDRWArray with assertions on. *)
From Coq Require Import List NArith ZArith Arith Bool Lia.
From Verif Require Import Base Spec Spec4 Spec8 Spec11 BitUtilModel FitVectorModel FitVectorProof HashModel FoDebugModel CHTModel CHTDebugModel CHTDebug CHTDebug2 CDRWModel CDRWDebugModel.
From Verif Require CHTDel CDRWProof CDRWAll.
Import CDRWProof CDRWAll.
Import ListNotations.
Local Open Scope nat_scope.

Section Array.
Variable n : nat.
Hypothesis Hn : 1 <= n.
Hypothesis Hn50 : (N.of_nat n <= 2 ^ 50)%N.
Let kb := N.to_nat (N.size (N.of_nat (n - 1))).
Let Hkb : kb <= 60 := kb_le n Hn Hn50.

Definition ASized (a : cdrw) : Prop :=
  fv_size (cd_widths a) = n /\ length (cd_tables a) = 64 /\ forall w t, nth_error (cd_tables a) w = Some t -> Sized kb (w + 1) t.
Definition TS (ts : list cht) : Prop := length ts = 64 /\ forall w t, nth_error ts w = Some t -> Sized kb (w + 1) t.
Lemma ts_in : forall ts w t, TS ts -> lget ts w = Ok t -> w < 64 /\ Sized kb (w + 1) t.
Proof.
  intros ts w t (L & H) E. unfold lget in E. destruct (nth_error ts w) as [x|] eqn:Ex; [|discriminate]. apply inj_ok in E. subst x. split; [|auto].
  rewrite <- L. apply nth_error_Some. congruence.
Qed.
Lemma ts_set : forall ts w t ts', TS ts -> Sized kb (w + 1) t -> lset ts w t = Ok ts' -> TS ts'.
Proof.
  intros ts w t ts' (L & H) St E. assert (Hw : w < length ts) by (unfold lset in E; destruct (Nat.ltb_spec w (length ts)); [auto|discriminate]).
  rewrite lset_Ok in E by exact Hw. apply inj_ok in E. subst ts'. split; [rewrite upd_length; exact L|].
  intros w' t' E. assert (Hw' : w' < length ts) by (rewrite <- (upd_length _ ts w t); apply nth_error_Some; congruence).
  apply nth_error_nth with (d := cht_zero) in E. rewrite nth_upd in E. destruct (Nat.eqb_spec w' w) as [->|D].
  - rewrite (proj2 (Nat.ltb_lt _ _) Hw) in E. cbn [andb] in E. subst t'. exact St.
  - cbn [andb] in E. apply H. rewrite <- E. apply nth_error_nth'. exact Hw'.
Qed.
Lemma make_agr : cdrw_make_d n = cdrw_make n /\ forall a, cdrw_make n = Ok a -> ASized a.
Proof.
  unfold cdrw_make_d, cdrw_make. rewrite (proj2 (Nat.eqb_neq n 0)) by lia. rewrite value_bits by lia. fold kb. unfold fv_sized_d. cbn [Nat.leb assert_that bind].
  assert (P : forall l, Forall (fun i => i < 64) l -> mapM (fun i => cht_start_d 0 50 kb 8 (i + 1)) l = mapM (fun i => cht_start 0 50 kb 8 (i + 1)) l /\
    forall ts, mapM (fun i => cht_start 0 50 kb 8 (i + 1)) l = Ok ts -> length ts = length l /\ forall w t, nth_error ts w = Some t -> Sized kb (nth w l 0 + 1) t).
  { induction l as [|i l IH]; intros F; cbn [mapM].
    - split; [reflexivity|]. intros ts E. apply inj_ok in E. subst ts. split; [reflexivity|]. intros [|w] t E; discriminate.
    - inversion F as [|? ? Hi F']; subst. destruct (IH F') as (A & B). clear IH.
      destruct (start_eq 0 50 kb (i + 1) (or_introl eq_refl) Hkb ltac:(lia) 3 ltac:(lia)) as (E1 & t0 & E2 & St & _). change (2 ^ 3) with 8 in *.
      assert (E3 : cht_start 0 50 kb 8 (i + 1) = Ok t0) by exact E2. assert (E4 : cht_start_d 0 50 kb 8 (i + 1) = Ok t0) by (unfold cht_start_d; rewrite E1; exact E2).
      rewrite E3, E4. cbn [bind]. rewrite A. split; [reflexivity|]. intros ts E. apply bind_Ok_inv in E as (ts' & E & E'). apply inj_ok in E'. subst ts. destruct (B ts' E) as (Lt & Nt).
      split; [cbn [length]; lia|]. intros [|w] t En; cbn [nth_error nth] in *; [injection En as <-; exact St|auto]. }
  destruct (P (seq 0 64)) as (A & B); [apply Forall_forall; intros x Hx; apply in_seq in Hx; lia|]. rewrite A. split; [reflexivity|].
  intros a E. apply bind_Ok_inv in E as (ts & E & E'). apply inj_ok in E'. subst a. destruct (B ts E) as (Lt & Nt). rewrite seq_length in Lt.
  split; [reflexivity|]. cbn [cd_tables]. split; [exact Lt|]. intros w t En. assert (w < 64) by (rewrite <- Lt; apply nth_error_Some; congruence). specialize (Nt w t En). rewrite seq_nth in Nt by auto. exact Nt.
Qed.
Lemma forget_agr : forall a i pw bits, ASized a -> i < n -> agrD (cdrw_forget_d a i pw bits) (cdrw_forget a i pw bits) /\ forall a', cdrw_forget a i pw bits = Ok a' -> ASized a'.
Proof.
  intros a i pw bits (W & T) Hi. unfold cdrw_forget_d, cdrw_forget. destruct (negb _ && negb _).
  - split.
    + apply agr_bind; [apply agr_eq; reflexivity|]. intros t Et. destruct (ts_in _ _ _ T Et) as (Hw & St).
      apply agr_bind; [|intros; apply agr_eq; reflexivity]. apply (step_agr 0 50 kb (N.to_nat pw + 1) (or_introl eq_refl) Hkb ltac:(lia) t (TabErase (N.of_nat i)) St). discriminate.
    + intros a' E. apply bind_Ok_inv in E as (t & Et & E). apply bind_Ok_inv in E as (t' & Et' & E). apply bind_Ok_inv in E as (ts & Ets & E). apply inj_ok in E. subst a'.
      destruct (ts_in _ _ _ T Et) as (Hw & St). split; [exact W|]. cbn [cd_tables]. refine (ts_set _ _ t' _ T _ Ets).
      apply (proj2 (step_agr 0 50 kb (N.to_nat pw + 1) (or_introl eq_refl) Hkb ltac:(lia) t (TabErase (N.of_nat i)) St ltac:(discriminate))). exact Et'.
  - split; [apply agr_eq; reflexivity|]. intros a' E. apply inj_ok in E. subst a'. split; auto.
Qed.
Lemma set_agr : forall a i v, ASized a -> i < n -> (v < 2 ^ 64)%N -> agrD (cdrw_set_d a i v) (cdrw_set a i v) /\ forall a', cdrw_set a i v = Ok a' -> ASized a'.
Proof.
  intros a i v Sa Hi Hv. unfold cdrw_set_d, cdrw_set. cbv zeta. rewrite value_bits by exact Hv. pose proof (index_fits n Hn Hn50 i Hi) as Hk. fold kb in Hk.
  pose proof (size_bound _ _ Hv) as Sb.
  assert (Fits : (0 < N.size v)%N -> (v < 2 ^ N.of_nat (N.to_nat (N.size v) - 1 + 1))%N).
  { intros P. replace (N.of_nat (N.to_nat (N.size v) - 1 + 1)) with (N.size v) by lia. apply size_lt_pow. }
  split.
  - apply agr_bind; [apply agr_eq; apply get_in; destruct Sa as (-> & _); exact Hi|]. intros pw _. destruct (forget_agr a i pw (N.size v) Sa Hi) as (A & B).
    apply agr_bind; [exact A|]. intros a1 E1. destruct (B a1 E1) as (W1 & T1). apply agr_bind; [apply agr_eq; apply set_in; rewrite W1; exact Hi|]. intros ws _.
    destruct (N.ltb_spec 0 (N.size v)) as [P|P]; [|apply agr_eq; reflexivity]. apply agr_bind; [apply agr_eq; reflexivity|]. intros t Et. destruct (ts_in _ _ _ T1 Et) as (Hw & St).
    apply agr_bind; [|intros; apply agr_eq; reflexivity]. apply (step_agr 0 50 kb (N.to_nat (N.size v) - 1 + 1) (or_introl eq_refl) Hkb ltac:(lia) t (TabSet (N.of_nat i) v) St). intros k x Q. injection Q as <- <-. auto.
  - intros a' E. apply bind_Ok_inv in E as (pw & _ & E). apply bind_Ok_inv in E as (a1 & E1 & E). apply bind_Ok_inv in E as (ws & Ew & E).
    destruct (forget_agr a i pw (N.size v) Sa Hi) as (_ & B). destruct (B a1 E1) as (W1 & T1). apply set_keeps in Ew as (_ & Ew). rewrite W1 in Ew.
    destruct (N.ltb_spec 0 (N.size v)) as [P|P].
    + apply bind_Ok_inv in E as (t & Et & E). apply bind_Ok_inv in E as (t' & Et' & E). apply bind_Ok_inv in E as (ts & Ets & E). apply inj_ok in E. subst a'.
      destruct (ts_in _ _ _ T1 Et) as (Hw & St). split; [exact Ew|]. cbn [cd_tables]. refine (ts_set _ _ t' _ T1 _ Ets).
      refine (proj2 (step_agr 0 50 kb (N.to_nat (N.size v) - 1 + 1) (or_introl eq_refl) Hkb ltac:(lia) t (TabSet (N.of_nat i) v) St _) t' Et'). intros k x Q. injection Q as <- <-. auto.
    + apply inj_ok in E. subst a'. split; [exact Ew|exact T1].
Qed.
Lemma writes_agr : forall ws a, ASized a -> Forall (fun w => fst w < n /\ (snd w < 2 ^ 64)%N) ws ->
  agrD (foldM (fun a ix => cdrw_set_d a (fst ix) (snd ix)) ws a) (foldM (fun a ix => cdrw_set a (fst ix) (snd ix)) ws a) /\
  forall a', foldM (fun a ix => cdrw_set a (fst ix) (snd ix)) ws a = Ok a' -> ASized a'.
Proof.
  induction ws as [|(i, v) ws IH]; intros a Sa F; cbn [foldM].
  - split; [apply agr_eq; reflexivity|]. intros a' E. apply inj_ok in E. subst a'. exact Sa.
  - inversion F as [|? ? (Hi & Hv) F']; subst. cbn [fst snd] in *. destruct (set_agr a i v Sa Hi Hv) as (A & B). split.
    + apply agr_bind; [exact A|]. intros a1 E1. apply IH; auto.
    + intros a' E. apply bind_Ok_inv in E as (a1 & E1 & E). apply (IH a1); auto.
Qed.
Lemma array_agr : forall ws, Forall (fun w => fst w < n /\ (snd w < 2 ^ 64)%N) ws ->
  agrD (cdrw_run_d n ws) (cdrw_run n ws) /\ forall a, cdrw_run n ws = Ok a -> ASized a.
Proof.
  intros ws F. unfold cdrw_run_d, cdrw_run. destruct make_agr as (E & S0). rewrite E. destruct (make_cinv n Hn Hn50) as (a0 & E0 & _). rewrite E0. cbn [bind]. apply writes_agr; auto.
Qed.
(** reading: the assertion fails exactly at the elements lost *)
Lemma get_cases : forall a f m E i, cinv n a f m E -> ASized a -> i < n ->
  (cdrw_get a i = Ok (f i) /\ cdrw_get_d a i = Ok (f i)) \/ (cdrw_get a i = Ok 0%N /\ f i <> 0%N /\ cdrw_get_d a i = Throw).
Proof.
  intros a f m E i ((wl & Rw & Ww & Lw & Ew) & (Lt & (e & lost & mm & Se & It) & _) & Hf) (W & T) Hi.
  unfold cdrw_get_d, cdrw_get. rewrite get_in by (rewrite W; exact Hi). rewrite (fv_get_rep _ wl true) by (auto; lia). cbn [bind]. rewrite Ew by auto.
  destruct (N.eqb_spec (N.size (f i)) 0) as [Z|Z]; [apply (proj1 (size_zero (f i))) in Z; rewrite Z; left; auto|].
  pose proof (size_bound _ _ (Hf i Hi)) as Sb. set (w := N.to_nat (N.size (f i)) - 1). assert (Ew' : N.size (f i) = N.of_nat (S w)) by (unfold w; lia).
  assert (Hw : w < 63) by (unfold w; lia). clearbody w. destruct (It w Hw) as (t & Et & I & Em). unfold lget. rewrite Et. cbn [bind]. pose proof (index_fits n Hn Hn50 i Hi) as Hk. fold kb in Hk.
  rewrite (get_eq kb (w + 1)) by (try lia; auto; apply T; exact Et).
  rewrite (CHTDel.inv_get kb 0 (w + 1) 50 Hkb ltac:(lia) ltac:(lia) (or_introl eq_refl) _ _ _ _ _ I _ Hk). cbn [bind]. rewrite (Em i (f i) Hi (conj eq_refl Ew')).
  destruct (in_dec N.eq_dec (N.of_nat i) (lost w)); [right|left; auto]. split; [reflexivity|]. split; [|reflexivity]. intros Q. rewrite Q in Z. apply Z. reflexivity.
Qed.
Theorem array_debug : forall ws, Forall (fun w => fst w < n /\ (snd w < 2 ^ 64)%N) ws -> (N.of_nat (length ws) < 2 ^ 49)%N ->
  (cdrw_run n ws <> UB -> cdrw_run_d n ws = cdrw_run n ws) /\
  ((exists pre post a, ws = pre ++ post /\ cdrw_run n pre = Ok a /\ exists t, In t (cd_tables a) /\ ch_used t = ch_bucket t) \/
   (existsb (fun w => (2 ^ 63 <=? snd w)%N) ws = true) \/
   exists a, cdrw_run_d n ws = Ok a /\ cdrw_run n ws = Ok a /\
     forall i, i < n -> (cdrw_get a i = Ok (last_value ws i) /\ cdrw_get_d a i = Ok (last_value ws i)) \/ (cdrw_get a i = Ok 0%N /\ last_value ws i <> 0%N /\ cdrw_get_d a i = Throw)).
Proof.
  intros ws Hw Le. destruct (array_agr ws Hw) as (A & B). split; [intros U; destruct A as [A|A]; [contradiction|exact A]|].
  destruct (existsb (fun w => (2 ^ 63 <=? snd w)%N) ws) eqn:Ex; [auto|].
  assert (Lo : Forall (fun w => fst w < n /\ (snd w < 2 ^ 63)%N) ws).
  { clear -Hw Ex. induction Hw as [|w ws (H1 & H2) F IH]; [constructor|]. cbn [existsb] in Ex. apply orb_false_iff in Ex as (E1 & E2). constructor; [|auto]. apply N.leb_gt in E1. auto. }
  destruct (make_cinv n Hn Hn50) as (a0 & E0 & I0). unfold cdrw_run in *. rewrite E0 in *. cbn [bind] in *.
  destruct (writes_inv n Hn Hn50 a0 I0 ws Lo Le) as [(pre & i & v & post & a & Ep & Er & St & _)|(a & Er & I)]; [left; exists pre, ((i, v) :: post), a; split; auto; split; auto; exact (stuck_full a v St)|right; right].
  exists a. split; [destruct A as [A|A]; [congruence|rewrite A; exact Er]|]. split; [exact Er|]. intros i Hi. eapply get_cases; eauto.
Qed.
End Array.
