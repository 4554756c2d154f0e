(** Proofs about CDRWModel. *)
From Coq Require Import List NArith ZArith Arith Bool Lia.
From Verif Require Import Base Spec Spec4 BitUtilModel FitVectorModel FitVectorProof HashModel CHTModel CHTMain CHTRun CDRWModel.
Import ListNotations.
Local Open Scope nat_scope.

Lemma size_bound : forall v b, (v < 2 ^ b)%N -> (N.size v <= b)%N.
Proof. intros v b Hv. destruct (N.eq_dec v 0) as [->|Nz]; [simpl; lia|]. rewrite N.size_log2 by auto. pose proof (proj1 (N.log2_lt_pow2 v b ltac:(lia)) Hv). lia. Qed.
Lemma size_zero : forall v, N.size v = 0%N <-> v = 0%N.
Proof. intros [|p]; simpl; split; auto; discriminate. Qed.
Lemma size_lt_pow : forall v, (v < 2 ^ N.size v)%N.
Proof. intros. apply N.size_gt. Qed.
Lemma value_bits : forall v, (v < 2 ^ 64)%N -> wsub 64 (clz64 v) = N.size v.
Proof.
  intros v Hv. destruct (N.eq_dec v 0) as [->|Nz]; [reflexivity|]. destruct (sig_bits v ltac:(lia)) as (b & E & Hb & Lo & Hi). rewrite E.
  rewrite N.size_log2 by auto. rewrite (N.log2_unique v (N.of_nat (b - 1))); [lia|lia|]. split; auto. replace (N.succ (N.of_nat (b - 1))) with (N.of_nat b) by lia. auto.
Qed.

Section Array.
Variable n : nat.
Hypothesis Hn : 1 <= n.
Hypothesis Hn50 : (N.of_nat n <= 2 ^ 50)%N.
Let kb := N.to_nat (N.size (N.of_nat (n - 1))).
Lemma kb_le : kb <= 60.
Proof. unfold kb. pose proof (size_bound (N.of_nat (n - 1)) 50 ltac:(lia)). lia. Qed.
Lemma index_fits : forall i, i < n -> (N.of_nat i < 2 ^ N.of_nat kb)%N.
Proof. intros i Hi. unfold kb. rewrite N2Nat.id. pose proof (size_lt_pow (N.of_nat (n - 1))). lia. Qed.
Lemma fits_index : forall k, (k < N.of_nat n)%N -> (k < 2 ^ N.of_nat kb)%N.
Proof. intros k Hk. rewrite <- (N2Nat.id k). apply index_fits. lia. Qed.

Definition entry (f : nat -> N) (w : nat) (k v : N) : Prop := (k < N.of_nat n)%N /\ f (N.to_nat k) = v /\ N.size v = N.of_nat w.
Definition inv (a : cdrw) (f : nat -> N) (m : nat) : Prop :=
  cd_size a = n /\ (exists wl, fv_rep (cd_widths a) wl true /\ fv_width (cd_widths a) = 7 /\ length wl = n /\ forall i, i < n -> nth i wl 0%N = N.size (f i)) /\
  length (cd_tables a) = 64 /\ (forall w, 1 <= w <= 63 -> exists t, nth_error (cd_tables a) (w - 1) = Some t /\ rep kb w 50 t (entry f w) /\ ch_size t <= m) /\
  (forall i, i < n -> (f i < 2 ^ 63)%N).

Lemma make_inv : exists a, cdrw_make n = Ok a /\ inv a (fun _ => 0%N) 0.
Proof.
  unfold cdrw_make. rewrite (proj2 (Nat.eqb_neq _ _)) by lia. rewrite value_bits by lia. fold kb.
  set (g := fun i => match cht_start 0 50 kb 8 (i + 1) with Ok t => t | _ => cht_zero end).
  assert (Eg : forall i, cht_start 0 50 kb 8 (i + 1) = Ok (g i)) by reflexivity.
  assert (Em : forall l, mapM (fun i => cht_start 0 50 kb 8 (i + 1)) l = Ok (map g l)).
  { induction l as [|x l IH]; auto. cbn [mapM map]. rewrite Eg. cbn [bind]. rewrite IH. reflexivity. }
  rewrite Em. cbn [bind]. eexists. split; [reflexivity|]. split; [reflexivity|]. cbn [cd_widths cd_tables]. split; [|split; [|split]].
  - exists (repeat 0%N n). split; [apply fv_sized_zero; lia|]. split; [reflexivity|]. split; [apply repeat_length|]. intros i Hi. simpl. clear. revert i. induction n; intros [|i]; simpl; auto.
  - now rewrite map_length, seq_length.
  - intros w Hw. exists (g (w - 1)). split.
    + apply map_nth_error. clear -Hw. rewrite (nth_error_nth' _ 0) by (rewrite seq_length; lia). f_equal. now rewrite seq_nth by lia.
    + destruct (start_rep kb 0 w 50 (le63 kb kb_le) ltac:(lia) Hw (or_introl eq_refl) 3 ltac:(lia) ltac:(pose proof kb_le; lia)) as (t & E & R & S & _).
      { apply Nat.leb_le. vm_compute. reflexivity. }
      pose proof (Eg (w - 1)) as E'. replace (w - 1 + 1) with w in E' by lia. change (2 ^ 3) with 8 in E. rewrite E in E'. injection E' as <-. rewrite S. split; auto.
      apply rep_ext with (1 := R). intros k v _. unfold entry. split; [|tauto]. intros (_ & <- & Sz). simpl in Sz. lia.
  - intros. reflexivity.
Qed.
Lemma get_inv : forall a f m i, inv a f m -> i < n -> cdrw_get a i = Ok (f i).
Proof.
  intros a f m i (Ia & (wl & Rw & Ww & Lw & Ew) & Lt & It & Hf) Hi. unfold cdrw_get. rewrite (fv_get_rep _ wl true) by (auto; lia). cbn [bind]. rewrite Ew by auto.
  destruct (N.eqb_spec (N.size (f i)) 0) as [Z|Z]; [apply (proj1 (size_zero (f i))) in Z; now rewrite Z|].
  pose proof (size_bound _ _ (Hf i Hi)) as Sb. destruct (It (N.to_nat (N.size (f i))) ltac:(lia)) as (t & Et & Rt & _).
  unfold lget. rewrite Et. cbn [bind]. destruct Rt as (l & vs & H & G & EP). pose proof (index_fits i Hi) as Hk.
  assert (En : entry f (N.to_nat (N.size (f i))) (N.of_nat i) (f i)) by (unfold entry; rewrite Nat2N.id, N2Nat.id; split; [lia|auto]).
  destruct (get_ok kb (N.to_nat (N.size (f i))) 50 (le63 kb kb_le) t l vs H G (N.of_nat i) Hk) as [(v & Hv & Eg)|(Hv & Eg)]; rewrite Eg; cbn [bind].
  - apply EP in Hv; auto. destruct Hv as (_ & Hv & _). rewrite Nat2N.id in Hv. now rewrite Hv.
  - exfalso. apply (Hv (f i)). now apply EP.
Qed.
Definition updf (f : nat -> N) (i : nat) (v : N) : nat -> N := fun j => if i =? j then v else f j.
Lemma set_inv : forall a f m i v, inv a f m -> i < n -> (v < 2 ^ 63)%N -> f i = 0%N \/ N.size (f i) = N.size v -> (N.of_nat m < 2 ^ 50)%N ->
  exists a', cdrw_set a i v = Ok a' /\ inv a' (updf f i v) (S m).
Proof.
  intros a f m i v (Ia & (wl & Rw & Ww & Lw & Ew) & Lt & It & Hf) Hi Hv Hw Hm. unfold cdrw_set. rewrite value_bits by (change (2 ^ 63)%N with 9223372036854775808%N in Hv; change (2 ^ 64)%N with 18446744073709551616%N; lia).
  rewrite (fv_get_rep _ wl true) by (auto; lia). cbn [bind]. rewrite Ew by auto. unfold cdrw_forget.
  assert (Ef : negb (N.size (f i) =? 0)%N && negb (N.size (f i) =? N.size v)%N = false).
  { destruct Hw as [-> | -> ]; [reflexivity|]. rewrite N.eqb_refl. apply andb_false_r. }
  rewrite Ef. cbn [bind]. pose proof (size_bound _ _ Hv) as Sb.
  destruct (fv_set_rep (cd_widths a) wl true i (N.size v) Rw ltac:(lia)) as (ws & Es & Wws & Rws); [rewrite Ww; change (2 ^ N.of_nat 7)%N with 128%N; lia|]. rewrite Es. cbn [bind].
  assert (Wn : exists wl', fv_rep ws wl' true /\ fv_width ws = 7 /\ length wl' = n /\ forall j, j < n -> nth j wl' 0%N = N.size (updf f i v j)).
  { exists (upd wl i (N.size v)). split; auto. split; [congruence|]. split; [now rewrite upd_length|]. intros j Hj. rewrite nth_upd. rewrite (proj2 (Nat.ltb_lt i _)) by lia. rewrite andb_true_r. unfold updf. rewrite (Nat.eqb_sym i j). destruct (j =? i); auto. }
  assert (Hf' : forall j, j < n -> (updf f i v j < 2 ^ 63)%N) by (intros j Hj; unfold updf; destruct (i =? j); auto).
  (* tables other than that of v *)
  assert (Oth : forall w t, N.of_nat w <> N.size v -> 1 <= w -> rep kb w 50 t (entry f w) -> rep kb w 50 t (entry (updf f i v) w)).
  { intros w t Nw Hw1 R. apply rep_ext with (1 := R). intros k x _. unfold entry, updf. destruct (Nat.eqb_spec i (N.to_nat k)) as [->|]; [|tauto]. split.
    - intros (_ & <- & C). congruence.
    - intros (_ & <- & C). exfalso. destruct Hw as [Z|Z]; [rewrite Z in C; simpl in C; lia|congruence]. }
  destruct (N.ltb_spec 0 (N.size v)) as [Pv|Pv].
  - destruct (It (N.to_nat (N.size v)) ltac:(lia)) as (t & Et & Rt & St). unfold lget. rewrite Et. cbn [bind].
    destruct (set_any kb 0 (N.to_nat (N.size v)) 50 (le63 kb kb_le) ltac:(lia) ltac:(lia) (or_introl eq_refl) 2 t _ (N.of_nat i) v Rt (index_fits i Hi)) as (t' & E' & R' & S').
    + rewrite N2Nat.id. apply size_lt_pow.
    + change (2 ^ 50)%N with 1125899906842624%N in Hm. change (2 ^ 51)%N with 2251799813685248%N. lia.
    + unfold cht_set. rewrite E'. cbn [bind]. rewrite lset_Ok by lia. cbn [bind]. eexists. split; [reflexivity|]. split; [auto|]. cbn [cd_widths cd_tables]. split; auto. split; [now rewrite upd_length|]. split; auto.
      intros w Hw1. destruct (Nat.eq_dec w (N.to_nat (N.size v))) as [->|Nw].
      * exists t'. split.
        -- rewrite (nth_error_nth' _ cht_zero) by (rewrite upd_length; lia). f_equal. rewrite nth_upd. rewrite Nat.eqb_refl, (proj2 (Nat.ltb_lt _ _)) by lia. reflexivity.
        -- split; [|lia]. apply rep_ext with (1 := R'). intros k x _. unfold upP, entry, updf. rewrite N2Nat.id.
           destruct (N.eqb_spec k (N.of_nat i)) as [->|Nk].
           ++ rewrite Nat2N.id, Nat.eqb_refl. split; [intuition|]. intros ->. split; [lia|auto].
           ++ rewrite (proj2 (Nat.eqb_neq i (N.to_nat k))) by lia. tauto.
      * destruct (It w Hw1) as (tw & Etw & Rtw & Stw). exists tw. split.
        -- rewrite (nth_error_nth' _ cht_zero) by (rewrite upd_length; lia). f_equal. rewrite nth_upd. rewrite (proj2 (Nat.eqb_neq _ _)) by lia. cbn [andb]. now apply nth_error_nth.
        -- split; [|lia]. apply Oth; auto; lia.
  - eexists. split; [reflexivity|]. split; [auto|]. cbn [cd_widths cd_tables]. split; auto. split; auto. split; auto. intros w Hw1. destruct (It w Hw1) as (tw & Etw & Rtw & Stw). exists tw. split; auto. split; [|lia]. apply Oth; auto; lia.
Qed.

Lemma last_value_app : forall ws i v j, last_value (ws ++ [(i, v)]) j = updf (last_value ws) i v j.
Proof. intros. unfold last_value. rewrite fold_left_app. reflexivity. Qed.
Lemma inv_ext : forall a f g m, inv a f m -> (forall i, i < n -> g i = f i) -> inv a g m.
Proof.
  intros a f g m (Ia & (wl & Rw & Ww & Lw & Ew) & Lt & It & Hf) E. split; auto. split; [exists wl; repeat (split; auto); intros; rewrite E by auto; auto|]. split; auto. split; [|intros; rewrite E by auto; auto].
  intros w Hw. destruct (It w Hw) as (t & E1 & E2 & E3). exists t. split; auto. split; auto. apply rep_ext with (1 := E2). intros k v _. unfold entry. split; intros (A & B & C); rewrite ?E in * by lia; auto.
Qed.
Lemma writes_inv : forall a0, inv a0 (fun _ => 0%N) 0 -> forall ws, Forall (fun w => fst w < n /\ (snd w < 2 ^ 63)%N) ws -> width_kept ws -> (N.of_nat (length ws) < 2 ^ 50)%N ->
  exists a, foldM (fun a ix => cdrw_set a (fst ix) (snd ix)) ws a0 = Ok a /\ inv a (last_value ws) (length ws).
Proof.
  intros a0 I0. induction ws as [|(i & v) ws IH] using rev_ind; intros Hw K Le.
  - exists a0. split; auto.
  - rewrite Forall_app in Hw. destruct Hw as (Hw & H1). inversion H1; subst. simpl in H2. destruct H2 as (Hi & Hv). rewrite app_length in Le. simpl in Le.
    destruct IH as (a & E & I); auto; [| |].
    + intros b j x c Ews. apply (K b j x (c ++ [(i, v)])). rewrite Ews, <- app_assoc. reflexivity.
    + lia.
    + rewrite foldM_app, E. cbn [bind foldM fst snd]. destruct (set_inv a _ _ i v I Hi Hv (K ws i v [] eq_refl)) as (a' & E' & I'); [lia|].
      rewrite E'. cbn [bind]. exists a'. split; auto. rewrite app_length. simpl. rewrite Nat.add_1_r. apply inv_ext with (1 := I'). intros. apply last_value_app.
Qed.
Theorem writes_correct : forall ws, Forall (fun w => fst w < n /\ (snd w < 2 ^ 63)%N) ws -> width_kept ws -> (N.of_nat (length ws) < 2 ^ 50)%N ->
  exists a, cdrw_run n ws = Ok a /\ forall i, i < n -> cdrw_get a i = Ok (last_value ws i).
Proof.
  intros ws Hw K Le. destruct make_inv as (a0 & E0 & I0). destruct (writes_inv a0 I0 ws Hw K Le) as (a & E & I). exists a. unfold cdrw_run. rewrite E0. cbn [bind]. split; auto.
  intros i Hi. apply get_inv with (1 := I). auto.
Qed.
End Array.

(** ** CDRWVector *)
Definition vinv (v : cdvec) (l : list N) (g : nat -> N) (m : nat) : Prop :=
  dv_size v = length l /\ 1 <= dv_cap v /\ (N.of_nat (dv_cap v) <= 2 ^ 50)%N /\ length l <= dv_cap v /\ inv (dv_cap v) (dv_arr v) g m /\ forall i, i < length l -> g i = nth i l 0%N.

Lemma vget : forall v l g m i, vinv v l g m -> i < length l -> cdv_get v i = Ok (nth i l 0%N).
Proof. intros v l g m i (Hs & H1 & H50 & Hc & I & Eg) Hi. unfold cdv_get. rewrite (get_inv _ H1 H50 _ _ _ i I) by lia. now rewrite Eg. Qed.
Lemma vset : forall v l g m i x, vinv v l g m -> i < dv_cap v -> (x < 2 ^ 63)%N -> g i = 0%N \/ N.size (g i) = N.size x -> (N.of_nat m < 2 ^ 50)%N ->
  exists v', cdv_set v i x = Ok v' /\ dv_size v' = dv_size v /\ dv_cap v' = dv_cap v /\ inv (dv_cap v) (dv_arr v') (updf g i x) (S m).
Proof.
  intros v l g m i x (Hs & H1 & H50 & Hc & I & Eg) Hi Hx Hw Hm. unfold cdv_set. destruct (set_inv _ H1 H50 _ _ _ i x I Hi Hx Hw Hm) as (a & E & I'). rewrite E. cbn [bind]. eexists. split; [reflexivity|]. auto.
Qed.
Lemma copy_inv : forall c v l g m, vinv v l g m -> 1 <= c -> (N.of_nat c <= 2 ^ 50)%N -> length l <= c -> (N.of_nat (length l) < 2 ^ 50)%N -> forall a, inv c a (fun _ => 0%N) 0 ->
  forall k, k <= length l -> exists a', foldM (fun next i => do x <- cdv_get v i; cdrw_set next i x) (seq 0 k) a = Ok a' /\ inv c a' (fun i => if i <? k then nth i l 0%N else 0%N) k.
Proof.
  intros c v l g m V Hc1 Hc50 Hl Hl50 a Ia. induction k as [|k IH]; intros Hk.
  - exists a. split; auto.
  - destruct (IH ltac:(lia)) as (a' & E & I). rewrite seq_S, foldM_app, E. cbn [bind foldM plus]. rewrite (vget _ _ _ _ k V) by lia. cbn [bind].
    destruct (set_inv c Hc1 Hc50 a' _ k k (nth k l 0%N) I) as (a2 & E2 & I2); [lia| |left; now rewrite Nat.ltb_irrefl|lia|].
    + destruct V as (_ & _ & _ & Hcv & (_ & _ & _ & _ & Hf) & Eg). rewrite <- Eg by lia. apply Hf. lia.
    + rewrite E2. exists a2. split; auto. eapply inv_ext; try eassumption. intros i Hi. unfold updf. destruct (Nat.eqb_spec k i) as [->|]; [now rewrite (proj2 (Nat.ltb_lt _ _)) by lia|].
      destruct (Nat.ltb_spec i k); destruct (Nat.ltb_spec i (S k)); auto; lia.
Qed.
Lemma vallocate : forall v l g m c, vinv v l g m -> 1 <= c -> (N.of_nat c <= 2 ^ 50)%N -> length l <= c -> (N.of_nat (length l) < 2 ^ 50)%N ->
  exists v', cdv_allocate v c = Ok v' /\ dv_cap v' = c /\ vinv v' l (fun i => nth i l 0%N) (length l).
Proof.
  intros v l g m c V H1 H50 Hl Hl50. unfold cdv_allocate. destruct (make_inv c H1 H50) as (a & E & I). rewrite E. cbn [bind].
  assert (Es : dv_size v = length l) by apply V. rewrite Es. destruct (copy_inv c v l g m V H1 H50 Hl Hl50 a I (length l) (le_n _)) as (a' & E' & I'). rewrite E'. cbn [bind]. eexists. split; [reflexivity|]. split; [reflexivity|].
  split; [reflexivity|]. cbn [dv_cap dv_arr]. do 3 (split; auto). split; auto. apply (inv_ext c H1 H50 _ _ _ _ I'). intros i Hi. destruct (Nat.ltb_spec i (length l)); auto. apply nth_overflow. auto.
Qed.
Lemma nth_put_at : forall l i v j, i < length l -> nth j (put_at l i v) 0%N = if i =? j then v else nth j l 0%N.
Proof.
  induction l as [|a l IH]; intros i v j Hi; [simpl in Hi; lia|]. destruct i as [|i]; destruct j as [|j]; cbn [put_at firstn skipn app nth Nat.eqb]; auto.
  apply IH. simpl in Hi. lia.
Qed.
Lemma put_at_length : forall l i v, i < length l -> length (put_at l i v) = length l.
Proof. intros. unfold put_at. rewrite app_length. cbn [length]. rewrite firstn_length, skipn_length. lia. Qed.

(** a write to an element *)
Lemma vset_elem : forall v l g m i x, vinv v l g m -> i < length l -> (x < 2 ^ 63)%N -> g i = 0%N \/ N.size (g i) = N.size x -> (N.of_nat m < 2 ^ 50)%N ->
  exists v', cdv_set v i x = Ok v' /\ vinv v' (put_at l i x) (updf g i x) (S m).
Proof.
  intros v l g m i x V Hi Hx Hw Hm. pose proof V as (Hs & H1 & H50 & Hc & I & Eg). destruct (vset v l g m i x V ltac:(lia) Hx Hw Hm) as (v' & E & Es & Ec & I'). exists v'. split; auto.
  unfold vinv. rewrite put_at_length by auto. rewrite Es, Ec. repeat (split; auto). intros j Hj. unfold updf. rewrite nth_put_at by auto. destruct (i =? j); auto.
Qed.
(** push_back, when there is room *)
Lemma vpush_room : forall v l g m x, vinv v l g m -> length l < dv_cap v -> (x < 2 ^ 63)%N -> g (length l) = 0%N \/ N.size (g (length l)) = N.size x -> (N.of_nat m < 2 ^ 50)%N ->
  exists v', cdv_set (CDV (S (dv_size v)) (dv_cap v) (dv_arr v)) (length l) x = Ok v' /\ vinv v' (l ++ [x]) (updf g (length l) x) (S m).
Proof.
  intros v l g m x (Hs & H1 & H50 & Hc & I & Eg) Hr Hx Hw Hm. unfold cdv_set. cbn [dv_arr dv_size dv_cap]. destruct (set_inv _ H1 H50 _ _ _ (length l) x I Hr Hx Hw Hm) as (a & E & I'). rewrite E. cbn [bind]. eexists. split; [reflexivity|].
  unfold vinv. cbn [dv_arr dv_size dv_cap]. rewrite app_length. simpl length. split; [lia|]. split; auto. split; auto. split; [lia|]. split; auto.
  intros i Hi. unfold updf. destruct (Nat.eqb_spec (length l) i) as [<-|Ne]; [now rewrite app_nth2, Nat.sub_diag by lia|]. rewrite app_nth1 by lia. apply Eg. lia.
Qed.

Ltac big := change (2 ^ 48)%N with 281474976710656%N in *; change (2 ^ 49)%N with 562949953421312%N in *; change (2 ^ 50)%N with 1125899906842624%N in *.

(** what an allocation to a larger size leaves *)
Lemma vgrow : forall v l g m n c, vinv v l g m -> (N.of_nat (length l) <= 2 ^ 48)%N -> 1 <= n -> length l <= n -> (N.of_nat n <= 2 ^ 48)%N -> dv_cap v <= n -> c = Nat.max n (dv_cap v * 2) \/ c = n * 2 \/ c = n ->
  exists v', cdv_allocate v c = Ok v' /\ dv_cap v' = c /\ vinv v' l (fun i => nth i l 0%N) (length l).
Proof. intros v l g m n c V Hl H1 Hn Hn48 Hc Ec. apply vallocate with (1 := V); big; lia. Qed.

Definition ginv (v : cdvec) (l : list N) (k : nat) : Prop :=
  exists g m, vinv v l g m /\ 1 <= length l /\ (forall i, length l <= i -> g i = 0%N) /\ (N.of_nat (length l) <= 2 ^ 48)%N /\ (N.of_nat m <= 2 ^ 48 + N.of_nat k)%N.
Lemma grow_sim : forall v l k o l', ginv v l k -> (N.of_nat k < 2 ^ 48)%N -> grow_step l o = Some l' -> exists v', cdv_step v o = Ok v' /\ ginv v' l' (S k).
Proof.
  intros v l k o l' (g & m & V & H0 & Z & Hl & Hm) Hk E. pose proof V as (Hs & H1 & H50 & Hc & I & Eg). destruct o as [x| |n|n| | |i x]; cbn [grow_step] in E; try discriminate; cbn [cdv_step].
  - destruct (N.ltb_spec x (2 ^ 63)) as [Hx|]; [|discriminate]. destruct (N.ltb_spec (N.of_nat (length l)) (2 ^ 48)) as [Hn|]; [|discriminate]. injection E as <-.
    assert (A : exists v1 g1 m1, (if dv_size v =? dv_cap v then cdv_allocate v (dv_size v * 2) else Ok v) = Ok v1 /\ vinv v1 l g1 m1 /\ (forall i, length l <= i -> g1 i = 0%N) /\ (N.of_nat m1 <= 2 ^ 48 + N.of_nat k)%N /\ length l < dv_cap v1).
    { destruct (Nat.eqb_spec (dv_size v) (dv_cap v)) as [F|F].
      - destruct (vgrow v l g m (dv_cap v) (dv_size v * 2) V Hl) as (v1 & E1 & C1 & V1); try (big; lia). exists v1, (fun i => nth i l 0%N), (length l). split; auto. split; auto. split; [intros; now apply nth_overflow|]. split; [big; lia|lia].
      - exists v, g, m. repeat (split; auto). lia. }
    destruct A as (v1 & g1 & m1 & E1 & V1 & Z1 & M1 & C1). rewrite E1. cbn [bind dv_size]. assert (Es1 : dv_size v1 = length l) by apply V1.
    replace (S (dv_size v1) - 1) with (length l) by lia. destruct (vpush_room v1 l g1 m1 x V1 C1 Hx (or_introl (Z1 _ (le_n _)))) as (v2 & E2 & V2); [big; lia|]. rewrite E2. exists v2. split; auto.
    exists (updf g1 (length l) x), (S m1). split; auto. rewrite app_length. simpl length. split; [lia|]. split; [|big; lia]. intros i Hi. unfold updf. rewrite (proj2 (Nat.eqb_neq _ _)) by lia. apply Z1. lia.
  - destruct (Nat.leb_spec (length l) n) as [Hn|]; [|discriminate]. destruct (N.ltb_spec (N.of_nat n) (2 ^ 48)) as [Hn48|]; [|discriminate]. injection E as <-.
    assert (A : exists v1 g1 m1, (if dv_cap v <? n then cdv_allocate v (Nat.max n (dv_cap v * 2)) else Ok v) = Ok v1 /\ vinv v1 l g1 m1 /\ (forall i, length l <= i -> g1 i = 0%N) /\ (N.of_nat m1 <= 2 ^ 48 + N.of_nat k)%N /\ n <= dv_cap v1).
    { destruct (Nat.ltb_spec (dv_cap v) n) as [F|F].
      - destruct (vgrow v l g m n (Nat.max n (dv_cap v * 2)) V Hl) as (v1 & E1 & C1 & V1); try (big; lia). exists v1, (fun i => nth i l 0%N), (length l). split; auto. split; auto. split; [intros; now apply nth_overflow|]. split; [big; lia|lia].
      - exists v, g, m. repeat (split; auto). }
    destruct A as (v1 & g1 & m1 & E1 & V1 & Z1 & M1 & C1). rewrite E1. cbn [bind]. eexists. split; [reflexivity|]. exists g1, m1. destruct V1 as (Hs1 & H11 & H501 & Hc1 & I1 & Eg1).
    assert (Ll : length (l ++ repeat 0%N (n - length l)) = n) by (rewrite app_length, repeat_length; lia).
    split; [|rewrite Ll; split; [lia|split; [intros i Hi; apply Z1; lia|split; [lia|big; lia]]]].
    unfold vinv. cbn [dv_size dv_cap dv_arr]. rewrite Ll. repeat (split; auto). intros i Hi. destruct (Nat.lt_ge_cases i (length l)).
    + rewrite app_nth1 by auto. auto.
    + rewrite app_nth2 by auto. rewrite nth_repeat_lt by lia. apply Z1. auto.
  - destruct (N.ltb_spec (N.of_nat n) (2 ^ 48)) as [Hn48|]; [|discriminate]. injection E as <-. destruct (Nat.leb_spec n (dv_cap v)) as [F|F].
    + exists v. split; auto. exists g, m. repeat (split; auto). big; lia.
    + destruct (vgrow v l g m n (Nat.max n (dv_cap v * 2)) V Hl) as (v1 & E1 & C1 & V1); try (big; lia). rewrite E1. exists v1. split; auto. exists (fun i => nth i l 0%N), (length l). split; auto. split; auto. split; [intros; now apply nth_overflow|]. big; lia.
  - injection E as <-. destruct (Nat.eqb_spec (dv_size v) (dv_cap v)) as [F|F].
    + exists v. split; auto. exists g, m. repeat (split; auto). big; lia.
    + rewrite Hs. destruct (vallocate v l g m (length l) V) as (v1 & E1 & C1 & V1); try (big; lia). rewrite E1. exists v1. split; auto. exists (fun i => nth i l 0%N), (length l). split; auto. split; auto. split; [intros; now apply nth_overflow|]. big; lia.
  - destruct (Nat.ltb_spec i (length l)) as [Hi|]; [|discriminate]. destruct (N.ltb_spec x (2 ^ 63)) as [Hx|]; [|discriminate]. cbn [andb] in E.
    destruct ((nth i l 0 =? 0) || (N.size (nth i l 0) =? N.size x))%N eqn:Ew; [|discriminate]. injection E as <-.
    destruct (vset_elem v l g m i x V Hi Hx) as (v' & E' & V'); [|big; lia|].
    + rewrite Eg by auto. apply orb_true_iff in Ew. rewrite !N.eqb_eq in Ew. auto.
    + rewrite E'. exists v'. split; auto. exists (updf g i x), (S m). split; auto. rewrite put_at_length by auto. split; auto. split; [|big; lia]. intros j Hj. unfold updf. rewrite (proj2 (Nat.eqb_neq _ _)) by lia. auto.
Qed.
Lemma start_vinv : forall n, 1 <= n -> (N.of_nat n <= 2 ^ 48)%N -> exists v, cdv_make n = Ok v /\ vinv v (repeat 0%N n) (fun _ => 0%N) 0.
Proof.
  intros n H1 H48. unfold cdv_make. destruct (make_inv n H1) as (a & E & I); [big; lia|]. rewrite E. cbn [bind]. eexists. split; [reflexivity|]. unfold vinv. cbn [dv_size dv_cap dv_arr]. rewrite repeat_length. repeat (split; auto); [big; lia|].
  intros i Hi. now rewrite nth_repeat_lt.
Qed.
Theorem grow_correct : forall n ops l, 1 <= n -> (N.of_nat n <= 2 ^ 48)%N -> (N.of_nat (length ops) < 2 ^ 48)%N -> steps grow_step (repeat 0%N n) ops = Some l ->
  exists v, cdv_run n ops = Ok v /\ dv_size v = length l /\ forall i, i < length l -> cdv_get v i = Ok (nth i l 0%N).
Proof.
  intros n ops l H1 H48 Ho E. destruct (start_vinv n H1 H48) as (v0 & E0 & V0). unfold cdv_run. rewrite E0. cbn [bind].
  assert (G0 : ginv v0 (repeat 0%N n) 0). { exists (fun _ => 0%N), 0. rewrite repeat_length. repeat (split; auto). big; lia. }
  assert (K : forall ops v s k, ginv v s k -> (N.of_nat (k + length ops) < 2 ^ 48)%N -> steps grow_step s ops = Some l -> exists v', foldM cdv_step ops v = Ok v' /\ ginv v' l (k + length ops)).
  { clear. induction ops as [|o ops IH]; intros v s k G Hk E; cbn [steps foldM length] in *.
    - injection E as <-. exists v. rewrite Nat.add_0_r. auto.
    - destruct (grow_step s o) as [s'|] eqn:Es; [|discriminate]. destruct (grow_sim v s k o s' G ltac:(lia) Es) as (v1 & E1 & G1). rewrite E1. cbn [bind]. destruct (IH v1 s' (S k) G1 ltac:(lia) E) as (v2 & E2 & G2). exists v2. split; auto. now rewrite Nat.add_succ_r. }
  destruct (K ops v0 _ 0 G0 Ho E) as (v & Ev & (g & m & V & _)). exists v. split; auto. split; [apply V|]. intros i Hi. now apply vget with (1 := V).
Qed.

Definition sinv (w : N) (v : cdvec) (l : list N) (k : nat) : Prop :=
  exists g m, vinv v l g m /\ (forall i, g i = 0%N \/ N.size (g i) = w) /\ (N.of_nat (length l) <= 2 ^ 48)%N /\ (N.of_nat m <= 2 ^ 48 + N.of_nat k)%N.
Lemma nth_width : forall v l g m w, vinv v l g m -> (forall i, g i = 0%N \/ N.size (g i) = w) -> forall i, nth i l 0%N = 0%N \/ N.size (nth i l 0%N) = w.
Proof. intros v l g m w (_ & _ & _ & _ & _ & Eg) Hg i. destruct (Nat.lt_ge_cases i (length l)); [rewrite <- Eg by auto; auto|]. left. now apply nth_overflow. Qed.
Lemma vshorter : forall v l g m n, vinv v l g m -> n <= length l -> vinv (CDV n (dv_cap v) (dv_arr v)) (firstn n l) g m.
Proof.
  intros v l g m n (Hs & H1 & H50 & Hc & I & Eg) Hn. unfold vinv. cbn [dv_size dv_cap dv_arr]. rewrite firstn_length. repeat (split; auto); try lia. intros i Hi.
  rewrite Eg by lia. rewrite <- (firstn_skipn n l) at 1. rewrite app_nth1; auto. rewrite firstn_length. lia.
Qed.
Lemma removelast_firstn' : forall (l : list N), removelast l = firstn (length l - 1) l.
Proof. intros. rewrite removelast_firstn_len. f_equal. lia. Qed.
Lemma same_sim : forall w v l k o l', (w <= 63)%N -> sinv w v l k -> (N.of_nat k < 2 ^ 48)%N -> same_step w l o = Some l' -> exists v', cdv_step v o = Ok v' /\ sinv w v' l' (S k).
Proof.
  intros w v l k o l' Hw63 (g & m & V & Z & Hl & Hm) Hk E. pose proof V as (Hs & H1 & H50 & Hc & I & Eg). pose proof (nth_width _ _ _ _ _ V Z) as Nw.
  assert (Xs : forall x, N.size x = w -> (x < 2 ^ 63)%N). { intros x Ex. apply N.lt_le_trans with (2 ^ w)%N; [rewrite <- Ex; apply size_lt_pow|]. apply N.pow_le_mono_r; lia. }
  destruct o as [x| |n|n| | |i x]; cbn [same_step] in E; try discriminate; cbn [cdv_step].
  - destruct (N.eqb_spec (N.size x) w) as [Hx|]; [|discriminate]. destruct (N.ltb_spec (N.of_nat (length l)) (2 ^ 48)) as [Hn|]; [|discriminate]. injection E as <-.
    assert (A : exists v1 g1 m1, (if dv_size v =? dv_cap v then cdv_allocate v (dv_size v * 2) else Ok v) = Ok v1 /\ vinv v1 l g1 m1 /\ (forall i, g1 i = 0%N \/ N.size (g1 i) = w) /\ (N.of_nat m1 <= 2 ^ 48 + N.of_nat k)%N /\ length l < dv_cap v1).
    { destruct (Nat.eqb_spec (dv_size v) (dv_cap v)) as [F|F].
      - destruct (vgrow v l g m (dv_cap v) (dv_size v * 2) V Hl) as (v1 & E1 & C1 & V1); try (big; lia). exists v1, (fun i => nth i l 0%N), (length l). split; auto. split; auto. split; auto. split; [big; lia|lia].
      - exists v, g, m. repeat (split; auto). lia. }
    destruct A as (v1 & g1 & m1 & E1 & V1 & Z1 & M1 & C1). rewrite E1. cbn [bind dv_size]. assert (Es1 : dv_size v1 = length l) by apply V1.
    replace (S (dv_size v1) - 1) with (length l) by lia. destruct (vpush_room v1 l g1 m1 x V1 C1 (Xs x Hx)) as (v2 & E2 & V2); [rewrite Hx; auto|big; lia|]. rewrite E2. exists v2. split; auto.
    exists (updf g1 (length l) x), (S m1). split; auto. rewrite app_length. simpl length. split; [|big; lia]. intros i. unfold updf. destruct (_ =? i); auto.
  - injection E as <-. destruct (Nat.eqb_spec (dv_size v) 0) as [F|F].
    + destruct l as [|a l]; [|simpl in Hs; lia]. exists v. split; auto. exists g, m. repeat (split; auto). big; lia.
    + assert (A : exists v1 g1 m1, (if dv_size v * 3 <? dv_cap v then cdv_allocate v (dv_size v * 2) else Ok v) = Ok v1 /\ vinv v1 l g1 m1 /\ (forall i, g1 i = 0%N \/ N.size (g1 i) = w) /\ (N.of_nat m1 <= 2 ^ 48 + N.of_nat k)%N).
      { destruct (Nat.ltb_spec (dv_size v * 3) (dv_cap v)) as [F'|F'].
        - destruct (vallocate v l g m (dv_size v * 2) V) as (v1 & E1 & C1 & V1); try (big; lia). exists v1, (fun i => nth i l 0%N), (length l). split; auto. split; auto. split; auto. big; lia.
        - exists v, g, m. repeat (split; auto). }
      destruct A as (v1 & g1 & m1 & E1 & V1 & Z1 & M1). rewrite E1. cbn [bind]. eexists. split; [reflexivity|]. exists g1, m1. rewrite removelast_firstn'. assert (Es1 : dv_size v1 = length l) by apply V1. rewrite Es1.
      split; [apply vshorter; auto; lia|]. split; auto. rewrite firstn_length. big; lia.
  - destruct (Nat.leb_spec n (length l)) as [Hn|]; [|discriminate]. injection E as <-. rewrite (proj2 (Nat.ltb_ge _ _)) by lia. cbn [bind]. eexists. split; [reflexivity|]. exists g, m. split; [now apply vshorter|]. split; auto. rewrite firstn_length. big; lia.
  - destruct (N.ltb_spec (N.of_nat n) (2 ^ 48)) as [Hn48|]; [|discriminate]. injection E as <-. destruct (Nat.leb_spec n (dv_cap v)) as [F|F].
    + exists v. split; auto. exists g, m. repeat (split; auto). big; lia.
    + destruct (vgrow v l g m n (Nat.max n (dv_cap v * 2)) V Hl) as (v1 & E1 & C1 & V1); try (big; lia). rewrite E1. exists v1. split; auto. exists (fun i => nth i l 0%N), (length l). split; auto. split; auto. big; lia.
  - destruct (Nat.eqb_spec (length l) 0) as [|L0]; [discriminate|]. injection E as <-. destruct (Nat.eqb_spec (dv_size v) (dv_cap v)) as [F|F].
    + exists v. split; auto. exists g, m. repeat (split; auto). big; lia.
    + rewrite Hs. destruct (vallocate v l g m (length l) V) as (v1 & E1 & C1 & V1); try (big; lia). rewrite E1. exists v1. split; auto. exists (fun i => nth i l 0%N), (length l). split; auto. split; auto. big; lia.
  - injection E as <-. eexists. split; [reflexivity|]. exists g, m. split; [exact (vshorter v l g m 0 V (Nat.le_0_l _))|]. split; auto. cbn [length]. big; lia.
  - destruct (Nat.ltb_spec i (length l)) as [Hi|]; [|discriminate]. destruct (N.eqb_spec (N.size x) w) as [Hx|]; [|discriminate]. cbn [andb] in E. injection E as <-.
    destruct (vset_elem v l g m i x V Hi (Xs x Hx)) as (v' & E' & V'); [rewrite Hx; auto|big; lia|].
    rewrite E'. exists v'. split; auto. exists (updf g i x), (S m). split; auto. rewrite put_at_length by auto. split; [|big; lia]. intros j. unfold updf. destruct (i =? j); auto.
Qed.
Theorem same_correct : forall w n ops l, (w <= 63)%N -> 1 <= n -> (N.of_nat n <= 2 ^ 48)%N -> (N.of_nat (length ops) < 2 ^ 48)%N -> steps (same_step w) (repeat 0%N n) ops = Some l ->
  exists v, cdv_run n ops = Ok v /\ dv_size v = length l /\ forall i, i < length l -> cdv_get v i = Ok (nth i l 0%N).
Proof.
  intros w n ops l Hw H1 H48 Ho E. destruct (start_vinv n H1 H48) as (v0 & E0 & V0). unfold cdv_run. rewrite E0. cbn [bind].
  assert (G0 : sinv w v0 (repeat 0%N n) 0). { exists (fun _ => 0%N), 0. rewrite repeat_length. repeat (split; auto). big; lia. }
  assert (K : forall ops v s k, sinv w v s k -> (N.of_nat (k + length ops) < 2 ^ 48)%N -> steps (same_step w) s ops = Some l -> exists v', foldM cdv_step ops v = Ok v' /\ sinv w v' l (k + length ops)).
  { clear - Hw. induction ops as [|o ops IH]; intros v s k G Hk E; cbn [steps foldM length] in *.
    - injection E as <-. exists v. rewrite Nat.add_0_r. auto.
    - destruct (same_step w s o) as [s'|] eqn:Es; [|discriminate]. destruct (same_sim w v s k o s' Hw G ltac:(lia) Es) as (v1 & E1 & G1). rewrite E1. cbn [bind]. destruct (IH v1 s' (S k) G1 ltac:(lia) E) as (v2 & E2 & G2). exists v2. split; auto. now rewrite Nat.add_succ_r. }
  destruct (K ops v0 _ 0 G0 Ho E) as (v & Ev & (g & m & V & _)). exists v. split; auto. split; [apply V|]. intros i Hi. now apply vget with (1 := V).
Qed.

(** ** construction from a range *)
Lemma last_value_notin : forall ws i, ~ In i (map fst ws) -> last_value ws i = 0%N.
Proof.
  intros ws i. induction ws as [|(j & v) ws IH] using rev_ind; intros Ni; auto. rewrite map_app, in_app_iff in Ni. simpl in Ni. rewrite last_value_app. unfold updf.
  rewrite (proj2 (Nat.eqb_neq _ _)) by tauto. apply IH. tauto.
Qed.
Lemma once_width_kept : forall ws, NoDup (map fst ws) -> width_kept ws.
Proof.
  intros ws Nd before i v after E. left. apply last_value_notin. subst ws. rewrite map_app in Nd. simpl in Nd. apply NoDup_remove_2 in Nd. intros C. apply Nd, in_or_app. auto.
Qed.
Lemma map_fst_combine : forall A B (a : list A) (b : list B), length a = length b -> map fst (combine a b) = a.
Proof. induction a as [|x a IH]; intros [|y b] E; simpl in *; try discriminate; auto. f_equal. apply IH. lia. Qed.
Lemma last_value_combine : forall l s i, i < length l -> last_value (combine (seq s (length l)) l) (s + i) = nth i l 0%N.
Proof.
  induction l as [|x l IH] using rev_ind; intros s i Hi; [simpl in Hi; lia|]. rewrite app_length in *. simpl in Hi. cbn [length]. rewrite Nat.add_1_r in *. rewrite seq_S.
  assert (Ec : forall (a : list nat) (b : list N) a' b', length a = length b -> combine (a ++ a') (b ++ b') = combine a b ++ combine a' b').
  { clear. induction a as [|u a IH]; intros [|w b] a' b' E; simpl in *; try discriminate; auto. f_equal. apply IH. lia. }
  rewrite Ec by now rewrite seq_length. cbn [combine]. rewrite last_value_app. unfold updf. destruct (Nat.eqb_spec (s + length l) (s + i)) as [E|Ne].
  - replace i with (length l) by lia. now rewrite app_nth2, Nat.sub_diag by lia.
  - rewrite app_nth1 by lia. apply IH. lia.
Qed.
Theorem range_correct : forall l, (N.of_nat (length l) < 2 ^ 50)%N -> Forall (fun x => (x < 2 ^ 63)%N) l ->
  exists a, cdrw_of_list l = Ok a /\ cd_size a = length l /\ forall i, i < length l -> cdrw_get a i = Ok (nth i l 0%N).
Proof.
  intros l Hl Hv. destruct l as [|x l]; [eexists; split; [reflexivity|]; split; [reflexivity|]; intros i Hi; simpl in Hi; lia|]. set (l' := x :: l) in *. assert (H1 : 1 <= length l') by (simpl; lia). clearbody l'.
  unfold cdrw_of_list. destruct (make_inv (length l') H1 ltac:(lia)) as (a0 & E0 & I0). rewrite E0. cbn [bind].
  destruct (writes_inv (length l') H1 ltac:(lia) a0 I0 (combine (seq 0 (length l')) l')) as (a & E & I).
  - apply Forall_forall. intros (i & v) Hin. cbn [fst snd]. pose proof (in_combine_l _ _ _ _ Hin) as A. pose proof (in_combine_r _ _ _ _ Hin) as B. apply in_seq in A. rewrite Forall_forall in Hv. split; [lia|auto].
  - apply once_width_kept. rewrite map_fst_combine by now rewrite seq_length. apply seq_NoDup.
  - rewrite combine_length, seq_length. lia.
  - exists a. split; auto. split; [apply I|]. intros i Hi. rewrite (get_inv _ H1 ltac:(lia) _ _ _ i I Hi). f_equal. exact (last_value_combine l' 0 i Hi).
Qed.
