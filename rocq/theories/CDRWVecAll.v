(** CDRWVector under arbitrary operations. *)
From Coq Require Import List NArith ZArith Arith Bool Lia.
From Verif Require Import Base Spec Spec4 Spec8 Spec9 BitUtilModel FitVectorModel FitVectorProof HashModel CHTModel CHTRing CHTShift CHTWord CHTProof CHTInsert CHTMain CHTResize CHTRun CHTErase CDRWModel.
From Verif Require CHTDel CDRWProof CDRWAll.
Import CDRWProof CDRWAll.
Import ListNotations.
Local Open Scope nat_scope.

(** ** Copying: nothing is erased *)
Section Copy.
Variable n : nat.
Hypothesis Hn : 1 <= n.
Hypothesis Hn50 : (N.of_nat n <= 2 ^ 50)%N.
Let kb := N.to_nat (N.size (N.of_nat (n - 1))).
Let Hkb : kb <= 60 := kb_le n Hn Hn50.
Definition fresh63 (a : cdrw) : Prop := exists t, nth_error (cd_tables a) 63 = Some t /\ cht_start 0 50 kb 8 64 = Ok t.

Lemma set_fresh63 : forall a f m i v a', CDRWProof.inv n a f m -> fresh63 a -> i < n -> f i = 0%N -> (v < 2 ^ 63)%N -> cdrw_set a i v = Ok a' -> fresh63 a'.
Proof.
  intros a f m i v a' (Ia & (wl & Rw & Ww & Lw & Ew) & Lt & _) (t & Et & St) Hi Hf Hv E. exists t. split; auto. revert E. unfold cdrw_set.
  rewrite value_bits by (change (2 ^ 63)%N with 9223372036854775808%N in Hv; change (2 ^ 64)%N with 18446744073709551616%N; lia).
  rewrite (fv_get_rep _ wl true) by (auto; lia). cbn [bind]. rewrite Ew, Hf by auto. change (N.size 0) with 0%N. unfold cdrw_forget. cbn [N.eqb negb andb bind]. pose proof (size_bound _ _ Hv) as Sb.
  intros E. apply bind_Ok_inv in E. destruct E as (ws & _ & E). destruct (N.ltb_spec 0 (N.size v)) as [P|P].
  - apply bind_Ok_inv in E. destruct E as (t1 & _ & E). apply bind_Ok_inv in E. destruct E as (t2 & _ & E). apply bind_Ok_inv in E. destruct E as (ts & E1 & E). apply Ok_inj in E. subst a'. cbn [cd_tables].
    rewrite lset_Ok in E1 by lia. apply Ok_inj in E1. subst ts. rewrite (nth_error_nth' _ cht_zero) by (rewrite upd_length; lia). f_equal. rewrite nth_upd, (proj2 (Nat.eqb_neq _ _)) by lia. cbn [andb]. now apply nth_error_nth.
  - apply Ok_inj in E. subst a'. auto.
Qed.
Lemma make_both : exists a, cdrw_make n = Ok a /\ CDRWProof.inv n a (fun _ => 0%N) 0 /\ fresh63 a.
Proof.
  destruct (CDRWProof.make_inv n Hn Hn50) as (a & E & I). exists a. split; auto. split; auto.
  destruct (make_cinv n Hn Hn50) as (a' & E' & (_ & (_ & _ & Z) & _)). rewrite E in E'. apply Ok_inj in E'. subst a'. exact Z.
Qed.
Lemma copy_both : forall (get : nat -> res N) x s, s <= n -> (N.of_nat s <= 2 ^ 49)%N -> (forall i, i < s -> get i = Ok (x i)) -> (forall i, i < s -> (x i < 2 ^ 63)%N) -> forall a, CDRWProof.inv n a (fun _ => 0%N) 0 -> fresh63 a ->
  forall k, k <= s -> exists a', foldM (fun next i => do x <- get i; cdrw_set next i x) (seq 0 k) a = Ok a' /\ CDRWProof.inv n a' (fun i => if i <? k then x i else 0%N) k /\ fresh63 a'.
Proof.
  intros get x s Hs Hs49 Hg Hx a Ia Fa. change (2 ^ 49)%N with 562949953421312%N in Hs49. induction k as [|k IH]; intros Hk.
  - exists a. split; auto.
  - destruct (IH ltac:(lia)) as (a' & E & I & F). rewrite seq_S, foldM_app, E. cbn [bind foldM plus]. rewrite Hg by lia. cbn [bind].
    assert (Z : (if k <? k then x k else 0%N) = 0%N) by now rewrite Nat.ltb_irrefl.
    destruct (CDRWProof.set_inv n Hn Hn50 a' _ k k (x k) I) as (a2 & E2 & I2); [lia|apply Hx; lia|left; exact Z|change (2 ^ 50)%N with 1125899906842624%N; lia|].
    rewrite E2. exists a2. split; auto. split.
    + eapply CDRWProof.inv_ext; try eassumption. intros i Hi. unfold updf. destruct (Nat.eqb_spec k i) as [->|]; [now rewrite (proj2 (Nat.ltb_lt _ _)) by lia|].
      destruct (Nat.ltb_spec i k); destruct (Nat.ltb_spec i (S k)); auto; lia.
    + refine (set_fresh63 a' _ k k (x k) a2 I F _ Z _ E2); [lia|apply Hx; lia].
Qed.
Lemma both_cinv : forall a f m, (N.of_nat m <= 2 ^ 50)%N -> CDRWProof.inv n a f m -> fresh63 a -> cinv n a f m 0.
Proof.
  intros a f m Hm (Ia & Wd & Lt & It & Hf) Fa. split; auto. split; auto. split; auto. split; [|exact Fa].
  exists (fun _ => 0), (fun _ => []), (fun w k => if (k <? N.of_nat n)%N && (N.size (f (N.to_nat k)) =? N.of_nat (S w))%N then Some (f (N.to_nat k)) else None). split; [reflexivity|].
  intros w Hw. destruct (It (w + 1) ltac:(lia)) as (t & Et & (l & vs & H & G & P) & Sz). exists t. replace (w + 1 - 1) with w in Et by lia. split; auto. split.
  - assert (B1 : 1 <= ch_bucket_bits t) by (apply (bits_pos 50 ltac:(lia)); apply G).
    exists l, vs, H; split; [apply G|]; split; [|split; [|split; [|split; [|exact B1]]]].
    + intros k v Hk. rewrite <- P by auto. unfold entry. split.
      * intros (L1 & <- & S1). split; auto. rewrite (proj2 (N.ltb_lt _ _)) by auto. rewrite S1. replace (w + 1) with (S w) by lia. rewrite N.eqb_refl. reflexivity.
      * intros (_ & D). destruct (N.ltb_spec k (N.of_nat n)) as [L1|]; [|discriminate]. destruct (N.eqb_spec (N.size (f (N.to_nat k))) (N.of_nat (S w))) as [S1|]; [|discriminate]. cbn [andb] in D. injection D as <-. split; auto. split; auto. replace (w + 1) with (S w) by lia. auto.
    + unfold CHTDel.flags. rewrite (cnt_none (fD l)) by (intros; apply (g_nodel _ _ _ _ _ _ _ G)). simpl. lia.
    + rewrite <- (g_size _ _ _ _ _ _ _ G). auto.
    + unfold CHTDel.szok. change (2 ^ 50)%N with 1125899906842624%N in Hm. change (2 ^ 64)%N with 18446744073709551616%N. lia.
  - intros i v Hi (<- & S1). rewrite (proj2 (N.ltb_lt _ _)) by lia. rewrite Nat2N.id, S1, N.eqb_refl. reflexivity.
Qed.
(** no table of such an array is full *)
Lemma copy_roomy : forall a f m x, CDRWProof.inv n a f m -> ~ stuck_at a x.
Proof.
  intros a f m x (Ia & Wd & Lt & It & Hf) (Hx & t & Et & Fu & _). pose proof (size_bound _ _ Hx) as Sb. destruct (It (N.to_nat (N.size x) - 1 + 1) ltac:(lia)) as (t' & Et' & (l & vs & H & G & P) & Sz).
  replace (N.to_nat (N.size x) - 1 + 1 - 1) with (N.to_nat (N.size x) - 1) in Et' by lia. replace t' with t in G by congruence.
  pose proof (g_le _ _ _ _ _ _ _ G) as Le. rewrite (g_max _ _ _ _ _ _ _ G) in Le. pose proof (a_B _ _ _ _ (g_a _ _ _ _ _ _ _ G)) as HB.
  assert (ch_bucket t * 50 / 100 < ch_bucket t) by (apply Nat.div_lt_upper_bound; [lia|]; clear - HB; lia). lia.
Qed.
End Copy.

(** ** The vector *)
Definition vtape (v : cdvec) (s : tape) (m : nat) : Prop :=
  dv_size v = tp_size s /\ dv_cap v = length (tp_cells s) /\ 1 <= dv_cap v /\ (N.of_nat (dv_cap v) <= 2 ^ 50)%N /\ dv_size v <= dv_cap v /\
  exists f E gone, cinv (dv_cap v) (dv_arr v) f m E /\ length gone + E <= tp_changes s /\
    forall i, i < dv_cap v -> f i = nth i (tp_cells s) 0%N \/ (f i = 0%N /\ In i gone).

Lemma vt_get : forall v s m, vtape v s m -> exists lost, length lost <= tp_changes s /\ forall i, i < dv_cap v -> cdv_get v i = Ok (if in_dec Nat.eq_dec i lost then 0%N else nth i (tp_cells s) 0%N).
Proof.
  intros v s m (Hs & Hc & H1 & H50 & Hle & f & E & gone & I & Le & Hf). destruct (get_cinv _ H1 H50 _ _ _ _ I) as (lost & Ll & G).
  exists (filter (fun i => negb (f i =? nth i (tp_cells s) 0)%N) gone ++ lost). split; [rewrite app_length; pose proof (filter_le _ (fun i => negb (f i =? nth i (tp_cells s) 0)%N) gone); lia|].
  intros i Hi. unfold cdv_get. rewrite G by auto. f_equal. destruct (in_dec Nat.eq_dec i lost) as [Y|Y].
  - destruct (in_dec Nat.eq_dec i _) as [|C]; auto. exfalso. apply C. apply in_or_app. auto.
  - destruct (in_dec Nat.eq_dec i _) as [C|C].
    + apply in_app_or in C. destruct C as [C|C]; [|contradiction]. apply filter_In in C. destruct C as (_ & C). apply negb_true_iff, N.eqb_neq in C. destruct (Hf i Hi) as [|(Z & _)]; [contradiction|auto].
    + destruct (Hf i Hi) as [|(Z & Ig)]; auto. destruct (N.eq_dec (f i) (nth i (tp_cells s) 0%N)) as [|Ne]; auto. exfalso. apply C. apply in_or_app. left. apply filter_In. split; auto. now apply negb_true_iff, N.eqb_neq.
Qed.
Lemma vt_low : forall v s m, vtape v s m -> forall lost i, i < dv_cap v -> cdv_get v i = Ok (if in_dec Nat.eq_dec i lost then 0%N else nth i (tp_cells s) 0%N) -> ((if in_dec Nat.eq_dec i lost then 0%N else nth i (tp_cells s) 0%N) < 2 ^ 63)%N.
Proof.
  intros v s m (Hs & Hc & H1 & H50 & Hle & f & E & gone & I & Le & Hf) lost i Hi Eg. destruct (get_cinv _ H1 H50 _ _ _ _ I) as (lost' & Ll & G). unfold cdv_get in Eg. rewrite G in Eg by auto. apply Ok_inj in Eg. rewrite <- Eg.
  destruct I as (_ & _ & Lo). destruct (in_dec Nat.eq_dec i lost'); auto. reflexivity.
Qed.
Lemma nth_retape : forall l s c i, s <= length l -> nth i (firstn s l ++ repeat 0%N c) 0%N = if i <? s then nth i l 0%N else 0%N.
Proof.
  intros l s c i Hs. assert (Lf : length (firstn s l) = s) by (rewrite firstn_length; lia). destruct (Nat.ltb_spec i s) as [Lt|Ge].
  - rewrite app_nth1 by lia. rewrite <- (firstn_skipn s l) at 2. now rewrite app_nth1 by lia.
  - rewrite app_nth2 by lia. apply nth_repeat.
Qed.
Lemma vt_allocate : forall v s m c, vtape v s m -> 1 <= c -> (N.of_nat c <= 2 ^ 50)%N -> tp_size s <= c -> (N.of_nat (tp_size s) <= 2 ^ 49)%N ->
  exists v', cdv_allocate v c = Ok v' /\ vtape v' (retape c s) (tp_size s) /\ forall x, ~ stuck_at (dv_arr v') x.
Proof.
  intros v s m c V H1c H50c Hc' Hs49. pose proof V as (Hs & Hc & H1 & H50 & Hle & _). destruct (vt_get _ _ _ V) as (lost & Ll & G). pose proof (vt_low _ _ _ V lost) as Lo. unfold cdv_allocate. destruct (make_both c H1c H50c) as (a & E & I & F). rewrite E. cbn [bind].
  destruct (copy_both c H1c H50c (cdv_get v) (fun i => if in_dec Nat.eq_dec i lost then 0%N else nth i (tp_cells s) 0%N) (tp_size s) Hc' Hs49) with (a := a) (k := tp_size s) as (a' & E' & I' & F'); auto.
  - intros i Hi. apply G. lia.
  - intros i Hi. apply Lo; [lia|]. apply G. lia.
  - rewrite Hs, E'. cbn [bind]. eexists. split; [reflexivity|]. split; [|intros x; exact (copy_roomy c H1c H50c a' _ _ x I')]. unfold vtape. cbn [dv_size dv_cap dv_arr]. split; auto.
    assert (Lr : length (tp_cells (retape c s)) = c) by (unfold retape; cbn [tp_cells]; rewrite app_length, firstn_length, repeat_length; lia).
    split; [auto|]. do 3 (split; auto). eexists. exists 0, lost. split; [apply (both_cinv c H1c H50c); [|exact I'|exact F']; change (2 ^ 49)%N with 562949953421312%N in Hs49; change (2 ^ 50)%N with 1125899906842624%N; lia|]. split; [cbn [retape tp_changes]; lia|].
    intros i Hi. unfold retape. cbn [tp_cells]. rewrite nth_retape by lia. destruct (Nat.ltb_spec i (tp_size s)); auto. destruct (in_dec Nat.eq_dec i lost); auto.
Qed.
Lemma vt_put : forall v s m i x, vtape v s m -> i < dv_cap v -> (x < 2 ^ 63)%N -> (N.of_nat m < 2 ^ 50 - 1)%N ->
  (cdv_set v i x = Fuel /\ stuck_at (dv_arr v) x) \/ exists v', cdv_set v i x = Ok v' /\ vtape v' (tape_put s i x) (S (S m)).
Proof.
  intros v s m i x (Hs & Hc & H1 & H50 & Hle & f & E & gone & I & Le & Hf) Hi Hx Hm. unfold cdv_set. destruct (set_cinv _ H1 H50 _ _ _ _ i x I Hi Hx Hm) as [(Ea & St)|(a' & Ea & I')]; rewrite Ea; [left; auto|right]. cbn [bind]. eexists. split; [reflexivity|]. unfold vtape, tape_put. cbn [dv_size dv_cap dv_arr tp_size tp_cells tp_changes]. rewrite put_at_length by lia. do 5 (split; auto).
  eexists. eexists. exists gone. split; [exact I'|]. split.
  - destruct (Hf i Hi) as [<-|(-> & _)]; [lia|]. cbn [N.eqb negb andb]. lia.
  - intros j Hj. rewrite nth_put_at by lia. unfold updf. destruct (i =? j); auto.
Qed.
Lemma vt_resize : forall v s m k, vtape v s m -> k <= dv_cap v -> vtape (CDV k (dv_cap v) (dv_arr v)) (resize_to k s) m.
Proof. intros v s m k (Hs & Hc & H1 & H50 & Hle & R) Hk. unfold vtape, resize_to. cbn [dv_size dv_cap dv_arr tp_size tp_cells tp_changes]. auto 8. Qed.

Definition ok_at (v : cdvec) (s : tape) (k : nat) : Prop := exists m, vtape v s m /\ (N.of_nat (tp_size s) <= 2 ^ 48)%N /\ (N.of_nat (length (tp_cells s)) <= 2 ^ 49)%N /\ (N.of_nat m <= 2 ^ 48 + 2 * N.of_nat k)%N.
Ltac nums := change (2 ^ 48)%N with 281474976710656%N in *; change (2 ^ 49)%N with 562949953421312%N in *; change (2 ^ 50)%N with 1125899906842624%N in *; change (1125899906842624 - 1)%N with 1125899906842623%N in *.
Lemma retape_cells : forall c s, tp_size s <= length (tp_cells s) -> tp_size s <= c -> length (tp_cells (retape c s)) = c.
Proof. intros c s H1 H2. unfold retape. cbn [tp_cells]. rewrite app_length, firstn_length, repeat_length. lia. Qed.
(** an optional allocation *)
Lemma vt_grow : forall v s k c (b : bool), ok_at v s k -> (N.of_nat k < 2 ^ 48)%N -> (b = true -> 1 <= c /\ tp_size s <= c /\ (N.of_nat c <= 2 ^ 49)%N) ->
  exists v', (if b then cdv_allocate v c else Ok v) = Ok v' /\ ok_at v' (if b then retape c s else s) k /\ (forall x, stuck_at (dv_arr v') x -> v' = v).
Proof.
  intros v s k c b (m & V & Hs48 & Hc49 & Hm) Hk Hb. destruct b; [|exists v; split; auto; split; auto; exists m; auto]. destruct (Hb eq_refl) as (C1 & C2 & C3).
  destruct (vt_allocate v s m c V C1) as (v' & E & V' & Rm); [nums; lia|auto|nums; lia|]. exists v'. split; auto. split; [|intros x St; exfalso; exact (Rm x St)]. exists (tp_size s). split; auto. split; [cbn [retape tp_size]; auto|]. split; [|nums; lia].
  rewrite retape_cells; auto. destruct V as (A1 & A2 & _ & _ & A3 & _). lia.
Qed.
Lemma tape_sim : forall v s k o s', ok_at v s k -> (N.of_nat k < 2 ^ 48)%N -> tape_step s o = Some s' ->
  (cdv_step v o = Fuel /\ exists x, (o = DPush x \/ exists i, o = DSet i x) /\ stuck_at (dv_arr v) x) \/ exists v', cdv_step v o = Ok v' /\ ok_at v' s' (S k).
Proof.
  intros v s k o s' K Hk E. pose proof K as (m & V & Hs48 & Hc49 & Hm). pose proof V as (Hs & Hc & H1 & H50 & Hle & _).
  assert (Up : forall v s, ok_at v s k -> ok_at v s (S k)) by (intros v0 s0 (m0 & V0 & A0 & B0 & C0); exists m0; do 3 (split; auto); lia).
  unfold tape_step in E. cbv zeta in E. destruct o as [x| |n|n| | |i x]; cbn [cdv_step].
  - destruct (N.ltb_spec x (2 ^ 63)) as [Hx|]; [|discriminate]. destruct (N.ltb_spec (N.of_nat (tp_size s)) (2 ^ 48)) as [Hn|]; [|discriminate]. cbn [andb] in E. injection E as <-.
    destruct (vt_grow v s k (dv_size v * 2) (dv_size v =? dv_cap v) K Hk) as (v1 & E1 & K1 & Rm1).
    { intros Eq. apply Nat.eqb_eq in Eq. split; [lia|]. split; [lia|]. nums. lia. }
    rewrite E1. cbn [bind]. rewrite Hs, Hc in K1. set (s1 := if tp_size s =? length (tp_cells s) then retape (tp_size s * 2) s else s) in *.
    assert (S1 : tp_size s1 = tp_size s) by (unfold s1; destruct (tp_size s =? length (tp_cells s)); reflexivity).
    assert (C1 : tp_size s < length (tp_cells s1)). { unfold s1. destruct (Nat.eqb_spec (tp_size s) (length (tp_cells s))); [rewrite retape_cells; lia|lia]. }
    clearbody s1. destruct K1 as (m1 & V1 & A1 & B1 & M1). pose proof V1 as (Hs1 & Hc1 & _). cbn [dv_size]. replace (S (dv_size v1) - 1) with (tp_size s) by lia.
    assert (V1' : vtape (CDV (S (dv_size v1)) (dv_cap v1) (dv_arr v1)) (resize_to (S (tp_size s)) s1) m1).
    { rewrite Hs1, S1. apply vt_resize; auto. lia. }
    destruct (vt_put _ _ _ (tp_size s) x V1') as [(E2 & St)|(v2 & E2 & V2)]; [cbn [dv_cap]; lia|auto|nums; lia|left; split; auto; exists x; split; auto; rewrite <- (Rm1 x St); exact St|]. right. exists v2. split; auto. exists (S (S m1)). split; [exact V2|].
    cbn [resize_to tape_put tp_size tp_cells]. split; [nums; lia|]. split; [rewrite put_at_length by lia; auto|nums; lia].
  - right. rewrite <- Hs in E. destruct (Nat.eqb_spec (dv_size v) 0) as [Z|Z]; [injection E as <-; exists v; split; auto|]. injection E as <-.
    destruct (vt_grow v s k (dv_size v * 2) (dv_size v * 3 <? dv_cap v) K Hk) as (v1 & E1 & K1 & _).
    { intros Eq. apply Nat.ltb_lt in Eq. split; [lia|]. split; [lia|]. nums. lia. }
    rewrite E1. cbn [bind]. eexists. split; [reflexivity|]. apply Up. rewrite <- Hc.
    destruct K1 as (m1 & V1 & A1 & B1 & M1). pose proof V1 as (Hs1 & Hc1 & _ & _ & Hle1 & _). exists m1.
    assert (S1 : dv_size v1 = dv_size v). { rewrite Hs1, Hs. destruct (tp_size s * 3 <? dv_cap v); reflexivity. }
    rewrite S1. split; [apply vt_resize; auto; lia|]. cbn [resize_to tp_size tp_cells]. split; [rewrite <- Hs in Hs48; nums; lia|auto].
  - destruct (N.ltb_spec (N.of_nat n) (2 ^ 48)) as [Hn|]; [|discriminate]. injection E as <-.
    destruct (vt_grow v s k (Nat.max n (dv_cap v * 2)) (dv_cap v <? n) K Hk) as (v1 & E1 & K1 & _).
    { intros Eq. apply Nat.ltb_lt in Eq. split; [lia|]. split; [lia|]. nums. lia. }
    right. rewrite E1. cbn [bind]. eexists. split; [reflexivity|]. apply Up. rewrite <- Hc.
    destruct K1 as (m1 & V1 & A1 & B1 & M1). pose proof V1 as (Hs1 & Hc1 & _ & _ & Hle1 & _). exists m1.
    assert (C1 : n <= dv_cap v1). { rewrite Hc1. destruct (Nat.ltb_spec (dv_cap v) n); [rewrite retape_cells; lia|lia]. }
    split; [apply vt_resize; auto|]. cbn [resize_to tp_size tp_cells]. split; [nums; lia|auto].
  - destruct (N.ltb_spec (N.of_nat n) (2 ^ 48)) as [Hn|]; [|discriminate]. injection E as <-.
    destruct (vt_grow v s k (Nat.max n (dv_cap v * 2)) (dv_cap v <? n) K Hk) as (v1 & E1 & K1 & _).
    { intros Eq. apply Nat.ltb_lt in Eq. split; [lia|]. split; [lia|]. nums. lia. }
    right. exists v1. split.
    + rewrite <- E1. destruct (Nat.leb_spec n (dv_cap v)); destruct (Nat.ltb_spec (dv_cap v) n); auto; lia.
    + apply Up. rewrite <- Hc. auto.
  - rewrite <- Hs, <- Hc in E. destruct (Nat.eqb_spec (dv_size v) (dv_cap v)) as [Q|Q]; [injection E as <-; right; exists v; auto|]. destruct (Nat.eqb_spec (dv_size v) 0) as [Z|Z]; [discriminate|]. injection E as <-.
    destruct (vt_grow v s k (dv_size v) true K Hk) as (v1 & E1 & K1 & _); [intros _; split; [lia|]; split; [lia|]; nums; lia|]. right. rewrite E1. exists v1. auto.
  - injection E as <-. right. eexists. split; [reflexivity|]. apply Up. exists m. split; [apply vt_resize; auto; lia|]. cbn [resize_to tp_size tp_cells]. split; [nums; lia|auto].
  - destruct (Nat.ltb_spec i (tp_size s)) as [Hi|]; [|discriminate]. destruct (N.ltb_spec x (2 ^ 63)) as [Hx|]; [|discriminate]. cbn [andb] in E. injection E as <-.
    destruct (vt_put v s m i x V) as [(E2 & St)|(v2 & E2 & V2)]; [lia|auto|nums; lia|left; split; auto; exists x; eauto|]. right. exists v2. split; auto. exists (S (S m)). split; auto. cbn [tape_put tp_size tp_cells]. split; auto. split; [rewrite put_at_length by lia; auto|nums; lia].
Qed.
Lemma steps_snoc : forall S O (f : S -> O -> option S) ops s o, steps f s (ops ++ [o]) = match steps f s ops with Some s' => f s' o | None => None end.
Proof. induction ops as [|a ops IH]; intros s o; simpl; [destruct (f s o); auto|]. destruct (f s a); auto. Qed.
Theorem vec_exact : forall n ops s, 1 <= n -> (N.of_nat n <= 2 ^ 48)%N -> (N.of_nat (length ops) <= 2 ^ 48)%N -> steps tape_step (Tape n (repeat 0%N n) 0) ops = Some s ->
  (exists pre o x post v, ops = pre ++ o :: post /\ (o = DPush x \/ exists i, o = DSet i x) /\ cdv_run n pre = Ok v /\ stuck_at (dv_arr v) x /\ cdv_run n ops = Fuel) \/
  (exists v lost, cdv_run n ops = Ok v /\ dv_size v = tp_size s /\ dv_cap v = length (tp_cells s) /\ tp_size s <= length (tp_cells s) /\ length lost <= tp_changes s /\
     forall i, i < length (tp_cells s) -> cdv_get v i = Ok (if in_dec Nat.eq_dec i lost then 0%N else nth i (tp_cells s) 0%N)).
Proof.
  intros n ops s H1 H48 Hl Hs.
  assert (A : (exists pre o x post v, ops = pre ++ o :: post /\ (o = DPush x \/ exists i, o = DSet i x) /\ cdv_run n pre = Ok v /\ stuck_at (dv_arr v) x /\ cdv_run n ops = Fuel) \/ exists v, cdv_run n ops = Ok v /\ ok_at v s (length ops)).
  { unfold cdv_run, cdv_make. destruct (make_cinv n H1) as (a & E & I); [nums; lia|]. rewrite E. cbn [bind]. set (v0 := CDV n n a).
    revert s Hs Hl. induction ops as [|o ops IH] using rev_ind; intros s Hs Hl.
    - right. exists v0. split; auto. cbn [steps] in Hs. injection Hs as <-. exists 0. unfold v0, vtape. cbn [dv_size dv_cap dv_arr tp_size tp_cells tp_changes]. rewrite repeat_length. split; [|split; [auto|split; [nums; lia|nums; lia]]].
      split; auto. split; auto. split; auto. split; [nums; lia|]. split; auto. exists (fun _ => 0%N), 0, []. split; auto. split; auto. intros i Hi. left. now rewrite nth_repeat.
    - rewrite steps_snoc in Hs. destruct (steps _ _ ops) as [s1|]; [|discriminate]. rewrite app_length in Hl. simpl in Hl.
      destruct (IH s1 eq_refl) as [(pre & o1 & x & post & v & Ep & Eo & Er & St & Fu)|(v & Er & K)]; [lia|left; exists pre, o1, x, (post ++ [o]), v; rewrite app_comm_cons, app_assoc, <- Ep; do 4 (split; auto); rewrite foldM_app, Fu; reflexivity|].
      destruct (tape_sim v s1 (length ops) o s K) as [(E' & x & Eo & St)|(v' & E' & K')]; [lia|auto|left; exists ops, o, x, [], v; do 4 (split; auto); rewrite foldM_app, Er; cbn [bind foldM]; rewrite E'; reflexivity|].
      assert (Er' : foldM cdv_step (ops ++ [o]) v0 = Ok v') by (rewrite foldM_app, Er; cbn [bind foldM]; rewrite E'; reflexivity).
      right. exists v'. split; auto. rewrite app_length. simpl. now rewrite Nat.add_1_r. }
  destruct A as [A|(v & Er & (m & V & _))]; [left; exact A|right].
  destruct (vt_get _ _ _ V) as (lost & Ll & G). pose proof V as (A1 & A2 & _ & _ & A3 & _). exists v, lost. split; auto. split; auto. split; auto. split; [lia|]. split; auto. intros i Hi. apply G. lia.
Qed.
Theorem vec_all : forall n ops s, 1 <= n -> (N.of_nat n <= 2 ^ 48)%N -> (N.of_nat (length ops) <= 2 ^ 48)%N -> steps tape_step (Tape n (repeat 0%N n) 0) ops = Some s ->
  (exists pre post v, ops = pre ++ post /\ cdv_run n pre = Ok v /\ exists t, In t (cd_tables (dv_arr v)) /\ ch_used t = ch_bucket t) \/
  (exists v lost, cdv_run n ops = Ok v /\ dv_size v = tp_size s /\ dv_cap v = length (tp_cells s) /\ tp_size s <= length (tp_cells s) /\ length lost <= tp_changes s /\
     forall i, i < length (tp_cells s) -> cdv_get v i = Ok (if in_dec Nat.eq_dec i lost then 0%N else nth i (tp_cells s) 0%N)).
Proof.
  intros n ops s H1 H48 Hl Hs. destruct (vec_exact n ops s H1 H48 Hl Hs) as [(pre & o & x & post & v & Ep & _ & Er & St & _)|A]; [left|right; exact A]. exists pre, (o :: post), v. split; auto. split; auto. exact (stuck_full _ _ St).
Qed.
