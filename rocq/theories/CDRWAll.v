(** CDRWArray under arbitrary writes. *)
From Coq Require Import List NArith ZArith Arith Bool Lia.
From Verif Require Import Base Spec Spec4 Spec8 BitUtilModel FitVectorModel FitVectorProof HashModel CHTModel CHTMain CHTRun CHTErase CHTFull CDRWModel.
From Verif Require CHTDel CDRWProof.
Import CDRWProof.
Import ListNotations.
Local Open Scope nat_scope.

Lemma Ok_inj : forall A (a b : A), Ok a = Ok b -> a = b.
Proof. intros. congruence. Qed.
Lemma sum_le : forall (f g : nat -> nat) s, (forall x, In x s -> f x <= g x) -> list_sum (map f s) <= list_sum (map g s).
Proof. induction s as [|x s IH]; intros H; simpl; auto. pose proof (H x (or_introl eq_refl)). pose proof (IH (fun y i => H y (or_intror i))). lia. Qed.
Lemma sum_bump : forall (f : nat -> nat) w s, NoDup s -> list_sum (map (fun x => if x =? w then S (f x) else f x) s) <= S (list_sum (map f s)).
Proof.
  intros f w s. induction s as [|x s IH]; intros Nd; simpl; auto. inversion Nd; subst. specialize (IH H2). destruct (Nat.eqb_spec x w) as [->|]; [|lia].
  assert (E : list_sum (map (fun x => if x =? w then S (f x) else f x) s) = list_sum (map f s)); [|lia].
  f_equal. apply map_ext_in. intros y Hy. destruct (Nat.eqb_spec y w) as [->|]; auto. contradiction.
Qed.
Lemma flat_length : forall A (f : nat -> list A) s, length (flat_map f s) = list_sum (map (fun x => length (f x)) s).
Proof. induction s as [|x s IH]; simpl; auto. now rewrite app_length, IH. Qed.
Lemma filter_le : forall A (f : A -> bool) l, length (filter f l) <= length l.
Proof. induction l as [|x l IH]; simpl; auto. destruct (f x); simpl; lia. Qed.

Lemma dinv_mono : forall kb VW L n e n' e' t lost m, CHTDel.inv kb VW L n e t lost m -> n <= n' -> e <= e' -> CHTDel.inv kb VW L n' e' t lost m.
Proof.
  intros kb VW L n e n' e' t lost m (l & vs & H & G & P & F & U & Sz & B1) Hn He. exists l, vs, H. split; auto. split; auto. split; [lia|]. split; [lia|]. split; auto. now apply CHTDel.szok_le with n.
Qed.
Lemma dinv_len : forall kb VW L n e t lost m, CHTDel.inv kb VW L n e t lost m -> length lost <= e.
Proof. intros kb VW L n e t lost m (l & vs & H & G & P & F & _). lia. Qed.
Lemma dinv_full : forall kb VW L n e t lost m, CHTDel.inv kb VW L n e t lost m -> ch_used t <= ch_bucket t /\ (ch_used t = ch_bucket t -> forall fuel i, i < ch_bucket t -> find_null fuel t i = Fuel).
Proof.
  intros kb VW L n e t lost m (l & vs & H & G & _). split; [apply (used_small kb VW L t l vs H G)|]. intros Fu. exact (full_endless kb VW L t l vs H G Fu).
Qed.

(** reading and writing elements either succeeds or is undefined *)
Lemma fv_get_cases : forall v i, fv_get v i = UB \/ exists x, fv_get v i = Ok x.
Proof.
  intros v i. unfold fv_get, bits_read, WidthMask, shl64, shr64, lget. repeat (match goal with |- context [match ?x with _ => _ end] => destruct x end; cbn [bind]; eauto).
Qed.
Lemma fv_set_cases : forall v i x, fv_set v i x = UB \/ exists v', fv_set v i x = Ok v'.
Proof.
  intros v i x. unfold fv_set, bits_write, WidthMask, shl64, shr64, lget, lset. repeat (match goal with |- context [match ?x with _ => _ end] => destruct x end; cbn [bind]; eauto).
Qed.
Lemma fv_set_64 : forall v i x, fv_width v = 64 -> fv_set v i x = UB.
Proof. intros v i x E. unfold fv_set. rewrite E. reflexivity. Qed.
Lemma put_word_cases : forall t i w, put_word t i w = UB \/ exists t', put_word t i w = Ok t' /\ ch_values t' = ch_values t.
Proof. intros t i w. unfold put_word. destruct (fv_set_cases (ch_arr t) i w) as [-> | (a & ->)]; cbn [bind]; eauto. Qed.

Lemma changes_snoc : forall ws i v, width_changes (ws ++ [(i, v)]) = width_changes ws + if negb (last_value ws i =? 0)%N && negb (N.size (last_value ws i) =? N.size v)%N then 1 else 0.
Proof.
  intros ws i v. unfold width_changes. rewrite app_length. simpl length. rewrite Nat.add_1_r, seq_S, filter_app, app_length. f_equal.
  - f_equal. apply filter_ext_in. intros p Hp. apply in_seq in Hp. rewrite app_nth1 by lia. rewrite firstn_app. replace (p - length ws) with 0 by lia. simpl firstn. now rewrite app_nil_r.
  - simpl filter. rewrite app_nth2, Nat.sub_diag by lia. cbn [nth fst snd]. rewrite firstn_app, Nat.sub_diag, firstn_all. simpl firstn. rewrite app_nil_r. destruct (_ && _); reflexivity.
Qed.

Section Array.
Variable n : nat.
Hypothesis Hn : 1 <= n.
Hypothesis Hn50 : (N.of_nat n <= 2 ^ 50)%N.
Let kb := N.to_nat (N.size (N.of_nat (n - 1))).
Let Hkb : kb <= 60 := kb_le n Hn Hn50.

Definition tabs_ok (ts : list cht) (g : nat -> nat -> N -> Prop) (m E : nat) : Prop :=
  length ts = 64 /\
  (exists e lost mm, list_sum (map e (seq 0 63)) <= E /\
    forall w, w < 63 -> exists t, nth_error ts w = Some t /\ CHTDel.inv kb (w + 1) 50 m (e w) t (lost w) (mm w) /\
      forall i v, i < n -> g w i v -> mm w (N.of_nat i) = Some v) /\
  (exists t, nth_error ts 63 = Some t /\ cht_start 0 50 kb 8 64 = Ok t).

Lemma erase_fresh : forall t k, cht_start 0 50 kb 8 64 = Ok t -> (k < 2 ^ N.of_nat kb)%N -> cht_erase 0 50 t k = Ok t.
Proof.
  intros t k E Hk. unfold cht_start, cht_set_value_width in E. change (negb (0 =? 0) || negb (ch_size (cht_make 0 50 kb 8) =? 0)) with false in E. cbn [Nat.eqb] in E. apply Ok_inj in E. subst t.
  unfold cht_erase. cbn [ch_size ch_min cht_make]. change (0 =? 8 * (50 - 1) / 400 + 1) with false. cbn [bind]. unfold cht_erase_here. cbn [ch_key_bits cht_make ch_bucket_bits ch_arr].
  destruct (hashf_ok kb (le63 kb Hkb) k Hk) as (Eh & Hh & _). rewrite Eh. cbn [bind]. change (N.to_nat (ctz64 (N.of_nat 8))) with 3. cbn [Nat.eqb]. change (shl64 1 (N.of_nat 3)) with (Ok 8%N). cbn [bind]. change (wsub 8 1) with 7%N.
  assert (Hi : N.to_nat (N.land (hashf kb k) 7) < 8). { change 7%N with (N.ones 3). rewrite N.land_ones. pose proof (N.mod_lt (hashf kb k) (2 ^ 3) ltac:(discriminate)). change (2 ^ 3)%N with 8%N in *. lia. }
  rewrite (fv_get_rep _ (repeat 0%N 8) true); [|apply fv_sized_zero; unfold kFlagBits; lia|rewrite repeat_length; auto].
  cbn [bind]. rewrite nth_repeat. reflexivity.
Qed.
(** the last table cannot be written: its values would be 64 bits wide *)
Lemma set_fresh : forall t k v, cht_start 0 50 kb 8 64 = Ok t -> (k < 2 ^ N.of_nat kb)%N -> cht_set 0 50 t k v = UB.
Proof.
  intros t k v E Hk. unfold cht_start, cht_set_value_width in E. change (negb (0 =? 0) || negb (ch_size (cht_make 0 50 kb 8) =? 0)) with false in E. cbn [Nat.eqb] in E. apply Ok_inj in E.
  assert (Ev : fv_width (ch_values t) = 64) by (subst t; reflexivity).
  assert (Ea : forall i, i < 8 -> fv_get (ch_arr t) i = Ok 0%N).
  { intros i Hi. subst t. cbn [ch_arr cht_make]. change (N.to_nat (ctz64 (N.of_nat 8))) with 3. rewrite (fv_get_rep _ (repeat 0%N 8) true); [now rewrite nth_repeat|apply fv_sized_zero; unfold kFlagBits; lia|rewrite repeat_length; auto]. }
  unfold cht_set. cbn [cht_set_fuel]. assert (Fi : cht_is_filled t = false) by (subst t; reflexivity). rewrite Fi. cbn [bind]. unfold cht_insert.
  destruct (hashf_ok kb (le63 kb Hkb) k Hk) as (Eh & Hh & _). assert (El : cht_locate t k = Ok (N.shiftr (hashf kb k) 3, N.to_nat (N.land (hashf kb k) 7))).
  { unfold cht_locate. subst t. cbn [ch_key_bits cht_make ch_bucket_bits]. rewrite Eh. reflexivity. }
  rewrite El. cbn [bind]. set (i := N.to_nat (N.land (hashf kb k) 7)).
  assert (Hi : i < 8). { unfold i. change 7%N with (N.ones 3). rewrite N.land_ones. pose proof (N.mod_lt (hashf kb k) (2 ^ 3) ltac:(discriminate)). change (2 ^ 3)%N with 8%N in *. lia. }
  clearbody i. unfold to_cluster_head. rewrite ?(Ea i Hi). cbn [bind]. change (is_shifted 0) with false. cbv iota. cbn [bind]. rewrite ?(Ea i Hi). cbn [bind]. change (is_occupied 0) with false. cbv iota. cbn [bind].
  unfold cht_insert_at. rewrite ?(Ea i Hi). cbn [bind]. change (is_null 0) with true. cbv iota. cbn [bind]. rewrite ?(Ea i Hi). cbn [bind]. change (shl64 (N.shiftr (hashf kb k) 3) 4) with (Ok (wrap64 (N.shiftl (N.shiftr (hashf kb k) 3) 4))). cbn [bind]. change (is_occupied 0) with false. cbn [negb]. cbv iota.
  destruct (put_word_cases t i (N.lor 0 kOccupiedMask)) as [-> | (t1 & E1 & V1)]; [reflexivity|]. rewrite E1. cbn [bind].
  destruct (fv_get_cases (ch_arr t1) i) as [-> | (w & E2)]; [reflexivity|]. rewrite E2. cbn [bind].
  match goal with |- context [put_word t1 i ?x] => destruct (put_word_cases t1 i x) as [-> | (t2 & E3 & V2)] end; [reflexivity|]. rewrite E3. cbn [bind].
  unfold put_value. cbn [with_counts ch_values]. rewrite fv_set_64 by congruence. reflexivity.
Qed.
Lemma fresh_inv : forall w t, 1 <= w <= 63 -> cht_start 0 50 kb 8 w = Ok t -> CHTDel.inv kb w 50 0 0 t [] (fun _ => None).
Proof.
  intros w t Hw E. destruct (CHTDel.tab_ok kb 0 w 50 Hkb ltac:(lia) Hw (or_introl eq_refl) 3 [] ltac:(lia)) as [(pre & k & v & post & t' & Ep & _)|(t' & lost & Et & I)].
  - apply Nat.leb_le. vm_compute. reflexivity.
  - reflexivity.
  - constructor.
  - exfalso. symmetry in Ep. apply app_eq_nil in Ep. destruct Ep as (_ & Ep). discriminate.
  - unfold tab_run in Et. change (2 ^ 3) with 8 in Et. rewrite E in Et. cbn [bind foldM] in Et. apply Ok_inj in Et. subst t'.
    assert (I' : CHTDel.inv kb w 50 0 0 t lost (fun _ => None)) by exact I. pose proof (dinv_len _ _ _ _ _ _ _ _ I') as Le. simpl in Le. destruct lost; [|simpl in Le; lia]. exact I'.
Qed.

Definition cinv (a : cdrw) (f : nat -> N) (m E : nat) : Prop :=
  (exists wl, fv_rep (cd_widths a) wl true /\ fv_width (cd_widths a) = 7 /\ length wl = n /\ forall i, i < n -> nth i wl 0%N = N.size (f i)) /\
  tabs_ok (cd_tables a) (fun w i v => f i = v /\ N.size v = N.of_nat (S w)) m E /\
  (forall i, i < n -> (f i < 2 ^ 63)%N).
(** some table has no free slot *)
Definition some_full (a : cdrw) : Prop := exists t, In t (cd_tables a) /\ ch_used t = ch_bucket t.
(** the table of the values as long as [v] has none, so that the search for one never ends *)
Definition stuck_at (a : cdrw) (v : N) : Prop := (v < 2 ^ 63)%N /\ exists t, nth_error (cd_tables a) (N.to_nat (N.size v) - 1) = Some t /\ ch_used t = ch_bucket t /\ forall fuel j, j < ch_bucket t -> find_null fuel t j = Fuel.
Lemma stuck_full : forall a v, stuck_at a v -> some_full a.
Proof. clear. intros a v (_ & t & E & F & _). exists t. split; auto. eapply nth_error_In; eauto. Qed.

Lemma make_cinv : exists a, cdrw_make n = Ok a /\ cinv a (fun _ => 0%N) 0 0.
Proof.
  unfold cdrw_make. rewrite (proj2 (Nat.eqb_neq _ _)) by lia. rewrite value_bits by lia. fold kb.
  set (g := fun i => match cht_start 0 50 kb 8 (i + 1) with Ok t => t | _ => cht_zero end).
  assert (Eg : forall i, cht_start 0 50 kb 8 (i + 1) = Ok (g i)) by reflexivity.
  assert (Em : forall l, mapM (fun i => cht_start 0 50 kb 8 (i + 1)) l = Ok (map g l)).
  { induction l as [|x l IH]; auto. cbn [mapM map]. rewrite Eg. cbn [bind]. rewrite IH. reflexivity. }
  assert (Nw : forall w, w < 64 -> nth_error (map g (seq 0 64)) w = Some (g w)).
  { intros w Hw. apply map_nth_error. rewrite (nth_error_nth' _ 0) by (rewrite seq_length; lia). f_equal. now rewrite seq_nth by lia. }
  rewrite Em. cbn [bind]. eexists. split; [reflexivity|]. cbn [cd_widths cd_tables]. split; [|split; [split; [|split]|]]; cbn [cd_widths cd_tables].
  - exists (repeat 0%N n). split; [apply fv_sized_zero; lia|]. split; [reflexivity|]. split; [apply repeat_length|]. intros i Hi. now rewrite nth_repeat.
  - now rewrite map_length, seq_length.
  - exists (fun _ => 0), (fun _ => []), (fun _ _ => None). split; [reflexivity|]. intros w Hw. exists (g w). split; [apply Nw; lia|]. split; [apply fresh_inv; [lia|apply Eg]|]. intros i v Hi (<- & C). discriminate C.
  - exists (g 63). split; [apply Nw; lia|]. apply (Eg 63).
  - intros. reflexivity.
Qed.

Lemma get_cinv : forall a f m E, cinv a f m E -> exists lost : list nat, length lost <= E /\ forall i, i < n -> cdrw_get a i = Ok (if in_dec Nat.eq_dec i lost then 0%N else f i).
Proof.
  intros a f m E ((wl & Rw & Ww & Lw & Ew) & (Lt & (e & lost & mm & Se & It) & _) & Hf).
  exists (flat_map (fun w => map N.to_nat (filter (fun k => (N.size (f (N.to_nat k)) =? N.of_nat (S w))%N) (lost w))) (seq 0 63)). split.
  - rewrite flat_length. eapply Nat.le_trans; [|exact Se]. apply sum_le. intros w Hw. apply in_seq in Hw. rewrite map_length. destruct (It w ltac:(lia)) as (t & _ & I & _). pose proof (dinv_len _ _ _ _ _ _ _ _ I). pose proof (filter_le _ (fun k => (N.size (f (N.to_nat k)) =? N.of_nat (S w))%N) (lost w)). lia.
  - intros i Hi. set (L := flat_map _ _).
    assert (HL : In i L <-> exists w, w < 63 /\ N.size (f i) = N.of_nat (S w) /\ In (N.of_nat i) (lost w)).
    { unfold L. rewrite in_flat_map. split.
      - intros (w & Hw & Hi'). apply in_seq in Hw. apply in_map_iff in Hi'. destruct Hi' as (k & Ek & Hk). apply filter_In in Hk. destruct Hk as (Hk & Sk). apply N.eqb_eq in Sk. exists w. subst i. rewrite N2Nat.id. split; [lia|auto].
      - intros (w & Hw & Sw & Iw). exists w. split; [apply in_seq; lia|]. apply in_map_iff. exists (N.of_nat i). split; [apply Nat2N.id|]. apply filter_In. split; auto. rewrite Nat2N.id. now apply N.eqb_eq. }
    clearbody L. unfold cdrw_get. rewrite (fv_get_rep _ wl true) by (auto; lia). cbn [bind]. rewrite Ew by auto.
    destruct (N.eqb_spec (N.size (f i)) 0) as [Z|Z]; [apply (proj1 (size_zero (f i))) in Z; rewrite Z; now destruct (in_dec Nat.eq_dec i L)|].
    pose proof (size_bound _ _ (Hf i Hi)) as Sb. set (w := N.to_nat (N.size (f i)) - 1). assert (Ew' : N.size (f i) = N.of_nat (S w)) by (unfold w; lia).
    destruct (It w ltac:(unfold w; lia)) as (t & Et & I & Em). unfold lget. rewrite Et. cbn [bind]. pose proof (index_fits n Hn Hn50 i Hi) as Hk. fold kb in Hk.
    rewrite (CHTDel.inv_get kb 0 (w + 1) 50 Hkb ltac:(lia) ltac:(unfold w; lia) (or_introl eq_refl) _ _ _ _ _ I _ Hk). cbn [bind]. rewrite (Em i (f i) Hi (conj eq_refl Ew')).
    destruct (in_dec N.eq_dec (N.of_nat i) (lost w)) as [Y|Y]; destruct (in_dec Nat.eq_dec i L) as [Y'|Y']; auto.
    + exfalso. apply Y'. apply HL. exists w. split; [unfold w; lia|auto].
    + exfalso. apply Y. apply HL in Y'. destruct Y' as (w' & Hw' & Sw' & Iw'). assert (w' = w) by lia. now subst.
Qed.

(** the erasure of [i] from table [p] *)
Lemma forget_tabs : forall ts g m E p i, tabs_ok ts g m E -> p <= 63 -> i < n -> (N.of_nat m < 2 ^ 50)%N ->
  exists t t' ts', lget ts p = Ok t /\ cht_erase 0 50 t (N.of_nat i) = Ok t' /\ lset ts p t' = Ok ts' /\ tabs_ok ts' g (S m) (S E) /\
    forall w t1, w < 63 -> nth_error ts' w = Some t1 -> ch_used t1 = ch_bucket t1 -> exists t0, nth_error ts w = Some t0 /\ ch_used t0 = ch_bucket t0.
Proof.
  intros ts g m E p i (Lt & (e & lost & mm & Se & It) & (tz & Ez & Hz)) Hp Hi Hm. pose proof (index_fits n Hn Hn50 i Hi) as Hk. fold kb in Hk.
  destruct (Nat.eq_dec p 63) as [->|Np].
  - exists tz, tz, (upd ts 63 tz). unfold lget. rewrite Ez. split; auto. split; [now apply erase_fresh|]. split; [apply lset_Ok; lia|].
    assert (Eu : forall w, nth_error (upd ts 63 tz) w = nth_error ts w).
    { intros w. destruct (Nat.lt_ge_cases w 64) as [Lw|Gw]; [|rewrite !(proj2 (nth_error_None _ _)) by (rewrite ?upd_length; lia); auto]. rewrite !(nth_error_nth' _ cht_zero) by (rewrite ?upd_length; lia). f_equal. rewrite nth_upd. destruct (Nat.eqb_spec w 63) as [->|]; auto. rewrite (nth_error_nth _ _ cht_zero Ez). now destruct (_ && _). }
    split; [|intros w t1 Hw Ew Fw; rewrite Eu in Ew; eauto]. split; [now rewrite upd_length|]. split.
    + exists e, lost, mm. split; [lia|]. intros w Hw. destruct (It w Hw) as (t & Et & I & Em). exists t. rewrite Eu. split; auto. split; auto. eapply dinv_mono; eauto.
    + exists tz. rewrite Eu. auto.
  - destruct (It p ltac:(lia)) as (t & Et & I & Em). destruct (CHTDel.erase_inv kb 0 (p + 1) 50 Hkb ltac:(lia) ltac:(lia) (or_introl eq_refl) _ _ _ _ _ (N.of_nat i) Hm I Hk) as (t' & lost' & E' & I' & Rm).
    exists t, t', (upd ts p t'). unfold lget. rewrite Et. split; auto. split; auto. split; [apply lset_Ok; lia|].
    assert (Eu : forall w, w < 64 -> nth_error (upd ts p t') w = if w =? p then Some t' else nth_error ts w).
    { intros w Hw. rewrite (nth_error_nth' _ cht_zero) by (rewrite upd_length; lia). rewrite nth_upd. destruct (Nat.eqb_spec w p) as [->|]; [rewrite (proj2 (Nat.ltb_lt _ _)) by lia; reflexivity|]. cbn [andb]. symmetry. apply nth_error_nth'. lia. }
    split; [|intros w t1 Hw Ew Fw; rewrite Eu in Ew by lia; destruct (Nat.eqb_spec w p) as [->|]; [|eauto]; injection Ew as <-; exists t; split; auto; pose proof (proj1 (dinv_full _ _ _ _ _ _ _ _ I)); lia].
    split; [now rewrite upd_length|]. split.
    + exists (fun x => if x =? p then S (e x) else e x), (fun x => if x =? p then lost' else lost x), mm. split.
      { pose proof (sum_bump e p (seq 0 63) (seq_NoDup _ _)). lia. }
      intros w Hw. destruct (Nat.eqb_spec w p) as [->|Nw].
      * exists t'. split; [|auto]. rewrite (nth_error_nth' _ cht_zero) by (rewrite upd_length; lia). f_equal. rewrite nth_upd, Nat.eqb_refl, (proj2 (Nat.ltb_lt _ _)) by lia. reflexivity.
      * destruct (It w Hw) as (tw & Ew & Iw & Emw). exists tw. split; [|split; [eapply dinv_mono; eauto|auto]]. rewrite (nth_error_nth' _ cht_zero) by (rewrite upd_length; lia). f_equal. rewrite nth_upd, (proj2 (Nat.eqb_neq _ _)) by lia. cbn [andb]. now apply nth_error_nth.
    + exists tz. split; auto. rewrite (nth_error_nth' _ cht_zero) by (rewrite upd_length; lia). f_equal. rewrite nth_upd, (proj2 (Nat.eqb_neq _ _)) by lia. cbn [andb]. now apply nth_error_nth.
Qed.
(** writing [v] for [i] to table [p] *)
Lemma put_tabs : forall ts g (g' : nat -> nat -> N -> Prop) m E p i v, tabs_ok ts g m E -> p < 63 -> i < n -> (v < 2 ^ N.of_nat (p + 1))%N -> (N.of_nat m < 2 ^ 50)%N ->
  (forall w j x, j < n -> g' w j x -> (w = p /\ j = i /\ x = v) \/ (g w j x /\ (j <> i \/ w <> p))) ->
  exists t, nth_error ts p = Some t /\
    ((cht_set 0 50 t (N.of_nat i) v = Fuel /\ ch_used t = ch_bucket t) \/
     exists t' ts', cht_set 0 50 t (N.of_nat i) v = Ok t' /\ lset ts p t' = Ok ts' /\ tabs_ok ts' g' (S m) E).
Proof.
  intros ts g g' m E p i v (Lt & (e & lost & mm & Se & It) & (tz & Ez & Hz)) Hp Hi Hv Hm Hg. pose proof (index_fits n Hn Hn50 i Hi) as Hk. fold kb in Hk.
  destruct (It p ltac:(lia)) as (t & Et & I & Em). destruct (CHTDel.set_inv kb 0 (p + 1) 50 Hkb ltac:(lia) ltac:(lia) (or_introl eq_refl) _ _ _ _ _ (N.of_nat i) v Hm I Hk Hv) as [(t' & lost' & E' & I')|(E' & Fu & _)]; exists t; (split; [exact Et|]); [right|left; auto].
  exists t', (upd ts p t'). split; auto. split; [apply lset_Ok; lia|].
  assert (Np : nth_error (upd ts p t') p = Some t') by (rewrite (nth_error_nth' _ cht_zero) by (rewrite upd_length; lia); f_equal; rewrite nth_upd, Nat.eqb_refl, (proj2 (Nat.ltb_lt _ _)) by lia; reflexivity).
  split; [now rewrite upd_length|]. split.
  - exists e, (fun x => if x =? p then lost' else lost x), (fun x => if x =? p then CHTDel.updm (mm p) (N.of_nat i) v else mm x). split; auto.
    intros w Hw. destruct (Nat.eqb_spec w p) as [->|Nw].
    + exists t'. split; auto. split; auto. intros j x Hj Gx. unfold CHTDel.updm. destruct (Hg _ _ _ Hj Gx) as [(_ & -> & ->)|(Gx' & C)]; [now rewrite N.eqb_refl|]. rewrite (proj2 (N.eqb_neq _ _)) by lia. auto.
    + destruct (It w Hw) as (tw & Ew & Iw & Emw). exists tw. split; [|split; [eapply dinv_mono; eauto|]]. { rewrite (nth_error_nth' _ cht_zero) by (rewrite upd_length; lia). f_equal. rewrite nth_upd, (proj2 (Nat.eqb_neq _ _)) by lia. cbn [andb]. now apply nth_error_nth. }
      intros j x Hj Gx. destruct (Hg _ _ _ Hj Gx) as [(C & _)|(Gx' & _)]; [contradiction|auto].
  - exists tz. split; auto. rewrite (nth_error_nth' _ cht_zero) by (rewrite upd_length; lia). f_equal. rewrite nth_upd, (proj2 (Nat.eqb_neq _ _)) by lia. cbn [andb]. now apply nth_error_nth.
Qed.
Lemma tabs_weaken : forall ts g (g' : nat -> nat -> N -> Prop) m m' E, tabs_ok ts g m E -> m <= m' -> (forall w j x, j < n -> g' w j x -> g w j x) -> tabs_ok ts g' m' E.
Proof.
  intros ts g g' m m' E (Lt & (e & lost & mm & Se & It) & Hz) Hm Hg. split; auto. split; auto. exists e, lost, mm. split; auto. intros w Hw. destruct (It w Hw) as (t & Et & I & Em). exists t. split; auto. split; [eapply dinv_mono; eauto|]. eauto.
Qed.

Lemma set_cinv : forall a f m E i v, cinv a f m E -> i < n -> (v < 2 ^ 63)%N -> (N.of_nat m < 2 ^ 50 - 1)%N ->
  (cdrw_set a i v = Fuel /\ stuck_at a v) \/ exists a', cdrw_set a i v = Ok a' /\ (cinv a' (updf f i v) (S (S m)) (E + if negb (f i =? 0)%N && negb (N.size (f i) =? N.size v)%N then 1 else 0)).
Proof.
  intros a f m E i v ((wl & Rw & Ww & Lw & Ew) & Tok & Hf) Hi Hv Hm. unfold cdrw_set. rewrite value_bits by (change (2 ^ 63)%N with 9223372036854775808%N in Hv; change (2 ^ 64)%N with 18446744073709551616%N; lia).
  rewrite (fv_get_rep _ wl true) by (auto; lia). cbn [bind]. rewrite Ew by auto. pose proof (size_bound _ _ Hv) as Sb. pose proof (size_bound _ _ (Hf i Hi)) as Sf.
  change (2 ^ 50 - 1)%N with 1125899906842623%N in Hm.
  set (d := if negb (f i =? 0)%N && negb (N.size (f i) =? N.size v)%N then 1 else 0).
  assert (F : exists ts', cdrw_forget a i (N.size (f i)) (N.size v) = Ok (CDRW (cd_size a) (cd_widths a) ts') /\ tabs_ok ts' (fun w i v => f i = v /\ N.size v = N.of_nat (S w)) (S m) (E + d) /\
    forall w t1, w < 63 -> nth_error ts' w = Some t1 -> ch_used t1 = ch_bucket t1 -> exists t0, nth_error (cd_tables a) w = Some t0 /\ ch_used t0 = ch_bucket t0).
  { unfold cdrw_forget, d. assert (Ez : (N.size (f i) =? 0)%N = (f i =? 0)%N).
    { destruct (N.eqb_spec (f i) 0) as [Z|Z]; [rewrite Z; reflexivity|]. apply N.eqb_neq. intros C. exact (Z (proj1 (size_zero _) C)). }
    rewrite Ez.
    destruct (negb (f i =? 0)%N && negb (N.size (f i) =? N.size v)%N).
    - destruct (forget_tabs _ _ _ _ (N.to_nat (N.size (f i))) i Tok ltac:(lia) Hi) as (t & t' & ts' & E1 & E2 & E3 & T' & Bk); [change (2 ^ 50)%N with 1125899906842624%N; lia|]. rewrite E1. cbn [bind]. rewrite E2. cbn [bind]. rewrite E3. cbn [bind]. exists ts'. split; auto. rewrite Nat.add_1_r. auto.
    - exists (cd_tables a). split; [now destruct a|]. rewrite Nat.add_0_r. split; [eapply tabs_weaken; eauto|eauto]. }
  destruct F as (ts' & Ef & T' & Bk). rewrite Ef. cbn [bind cd_widths cd_size cd_tables].
  destruct (fv_set_rep (cd_widths a) wl true i (N.size v) Rw ltac:(lia)) as (ws & Es & Wws & Rws); [rewrite Ww; change (2 ^ N.of_nat 7)%N with 128%N; lia|]. rewrite Es. cbn [bind].
  assert (Wn : exists wl', fv_rep ws wl' true /\ fv_width ws = 7 /\ length wl' = n /\ forall j, j < n -> nth j wl' 0%N = N.size (updf f i v j)).
  { exists (upd wl i (N.size v)). split; auto. split; [congruence|]. split; [now rewrite upd_length|]. intros j Hj. rewrite nth_upd. rewrite (proj2 (Nat.ltb_lt i _)) by lia. rewrite andb_true_r. unfold updf. rewrite (Nat.eqb_sym i j). destruct (j =? i); auto. }
  assert (Hf' : forall j, j < n -> (updf f i v j < 2 ^ 63)%N) by (intros j Hj; unfold updf; destruct (i =? j); auto).
  destruct (N.ltb_spec 0 (N.size v)) as [Pv|Pv].
  - destruct (put_tabs ts' _ (fun w j x => updf f i v j = x /\ N.size x = N.of_nat (S w)) _ _ (N.to_nat (N.size v) - 1) i v T' ltac:(lia) Hi) as (t & E1 & C).
    + replace (N.of_nat (N.to_nat (N.size v) - 1 + 1)) with (N.size v) by lia. apply size_lt_pow.
    + change (2 ^ 50)%N with 1125899906842624%N. lia.
    + intros w j x Hj (Ex & Sx). unfold updf in Ex. destruct (Nat.eqb_spec i j) as [->|Nj]; [subst x; left; split; [lia|auto]|right; split; [auto|left; auto]].
    + unfold lget. rewrite E1. cbn [bind]. destruct C as [(E2 & Fu)|(t' & ts2 & E2 & E3 & T2)]; [left|right].
      * rewrite E2. split; [reflexivity|]. split; auto. assert (Hp : N.to_nat (N.size v) - 1 < 63) by lia. destruct (Bk _ _ Hp E1 Fu) as (t0 & E0 & F0). exists t0. split; auto. split; auto.
        destruct Tok as (_ & (e & lost & mm & _ & It) & _). destruct (It (N.to_nat (N.size v) - 1) Hp) as (t2 & E2' & I2 & _). replace t2 with t0 in I2 by congruence. exact (proj2 (dinv_full _ _ _ _ _ _ _ _ I2) F0).
      * rewrite E2. cbn [bind]. rewrite E3. cbn [bind]. eexists. split; [reflexivity|]. split; [exact Wn|]. split; [exact T2|auto].
  - right. eexists. split; [reflexivity|]. split; [exact Wn|]. split; [|auto]. cbn [cd_tables]. eapply tabs_weaken; eauto. intros w j x Hj (Ex & Sx). cbv beta. unfold updf in Ex. destruct (i =? j); auto. subst x. lia.
Qed.

Lemma set_top : forall a f m E i v, cinv a f m E -> i < n -> (2 ^ 63 <= v)%N -> (v < 2 ^ 64)%N -> (N.of_nat m < 2 ^ 50 - 1)%N -> cdrw_set a i v = UB.
Proof.
  intros a f m E i v ((wl & Rw & Ww & Lw & Ew) & Tok & Hf) Hi Hv Hv64 Hm. unfold cdrw_set. rewrite value_bits by auto.
  assert (Sv : N.size v = 64%N). { rewrite N.size_log2 by (intros ->; vm_compute in Hv; auto). rewrite (N.log2_unique v 63); [reflexivity|apply N.le_0_l|split; auto]. }
  rewrite Sv. rewrite (fv_get_rep _ wl true) by (auto; lia). cbn [bind]. rewrite Ew by auto. pose proof (size_bound _ _ (Hf i Hi)) as Sf. change (2 ^ 50 - 1)%N with 1125899906842623%N in Hm.
  assert (F : exists ts' d, cdrw_forget a i (N.size (f i)) 64 = Ok (CDRW (cd_size a) (cd_widths a) ts') /\ tabs_ok ts' (fun w i v => f i = v /\ N.size v = N.of_nat (S w)) (S m) d).
  { unfold cdrw_forget. destruct (negb (N.size (f i) =? 0)%N && negb (N.size (f i) =? 64)%N).
    - destruct (forget_tabs _ _ _ _ (N.to_nat (N.size (f i))) i Tok ltac:(lia) Hi) as (t & t' & ts' & E1 & E2 & E3 & T' & _); [change (2 ^ 50)%N with 1125899906842624%N; lia|]. rewrite E1. cbn [bind]. rewrite E2. cbn [bind]. rewrite E3. cbn [bind]. exists ts', (S E). auto.
    - exists (cd_tables a), E. split; [now destruct a|]. eapply tabs_weaken; eauto. }
  destruct F as (ts' & d & Ef & T'). rewrite Ef. cbn [bind cd_widths cd_size cd_tables].
  destruct (fv_set_rep (cd_widths a) wl true i 64 Rw ltac:(lia)) as (ws & Es & Wws & Rws); [rewrite Ww; reflexivity|]. rewrite Es. cbn [bind]. change (0 <? 64)%N with true. cbv iota.
  destruct T' as (_ & _ & (tz & Ez & Es')). change (N.to_nat 64 - 1) with 63. unfold lget. rewrite Ez. cbn [bind]. rewrite set_fresh; auto. now apply (index_fits n Hn Hn50 i Hi).
Qed.

Lemma writes_inv : forall a0, cinv a0 (fun _ => 0%N) 0 0 -> forall ws, Forall (fun w => fst w < n /\ (snd w < 2 ^ 63)%N) ws -> (N.of_nat (length ws) < 2 ^ 49)%N ->
  (exists pre i v post a, ws = pre ++ (i, v) :: post /\ foldM (fun a ix => cdrw_set a (fst ix) (snd ix)) pre a0 = Ok a /\ stuck_at a v /\ foldM (fun a ix => cdrw_set a (fst ix) (snd ix)) ws a0 = Fuel) \/
  (exists a, foldM (fun a ix => cdrw_set a (fst ix) (snd ix)) ws a0 = Ok a /\ cinv a (last_value ws) (2 * length ws) (width_changes ws)).
Proof.
  intros a0 I0 ws Hw Le.
  change (2 ^ 49)%N with 562949953421312%N in Le. induction ws as [|(i & v) ws IH] using rev_ind.
  - right. exists a0. split; auto.
  - rewrite Forall_app in Hw. destruct Hw as (Hw & H1). inversion H1; subst. simpl in H2. destruct H2 as (Hi & Hv). rewrite app_length in Le. simpl in Le.
    destruct IH as [(pre & j & x & post & a & Ep & E & St & Fu)|(a & E & I)]; [auto|lia| |].
    + left. exists pre, j, x, (post ++ [(i, v)]), a. rewrite app_comm_cons, app_assoc, <- Ep. split; auto. split; auto. split; auto. rewrite foldM_app, Fu. reflexivity.
    + destruct (set_cinv a _ _ _ i v I Hi Hv) as [(E' & St)|(a' & E' & I')]; [change (2 ^ 50 - 1)%N with 1125899906842623%N; lia|left; exists ws, i, v, [], a; split; auto; split; auto; split; auto; rewrite foldM_app, E; cbn [bind foldM fst snd]; rewrite E'; reflexivity|].
      right.
      assert (Er : foldM (fun a ix => cdrw_set a (fst ix) (snd ix)) (ws ++ [(i, v)]) a0 = Ok a') by (rewrite foldM_app, E; cbn [bind foldM fst snd]; rewrite E'; reflexivity).
      exists a'. split; auto. rewrite changes_snoc. replace (2 * length (ws ++ [(i, v)])) with (S (S (2 * length ws))) by (rewrite app_length; simpl; lia).
      destruct I' as (W & T & F). split; [|split].
      * destruct W as (wl & W1 & W2 & W3 & W4). exists wl. split; auto. split; auto. split; auto. intros j Hj. rewrite last_value_app. auto.
      * eapply tabs_weaken; eauto. intros w j x Hj. cbv beta. now rewrite last_value_app.
      * intros j Hj. rewrite last_value_app. auto.
Qed.
Lemma first_top : forall ws, Forall (fun w => fst w < n /\ (snd w < 2 ^ 64)%N) ws -> Forall (fun w => fst w < n /\ (snd w < 2 ^ 63)%N) ws \/
  exists pre i v post, ws = pre ++ (i, v) :: post /\ Forall (fun w => fst w < n /\ (snd w < 2 ^ 63)%N) pre /\ i < n /\ (2 ^ 63 <= v < 2 ^ 64)%N.
Proof.
  induction ws as [|(i & v) ws IH]; intros H; auto. inversion H; subst. simpl in H2. destruct H2 as (Hi & Hv). destruct (N.lt_ge_cases v (2 ^ 63)) as [Lv|Gv].
  - destruct (IH H3) as [A|(pre & j & x & post & -> & F & R)]; [left; constructor; auto|right]. exists ((i, v) :: pre), j, x, post. split; auto.
  - right. exists [], i, v, ws. auto.
Qed.
Theorem all_exact : forall ws, Forall (fun w => fst w < n /\ (snd w < 2 ^ 64)%N) ws -> (N.of_nat (length ws) < 2 ^ 49)%N ->
  (exists pre i v post a, ws = pre ++ (i, v) :: post /\ cdrw_run n pre = Ok a /\ stuck_at a v /\ cdrw_run n ws = Fuel) \/
  (if existsb (fun w => (2 ^ 63 <=? snd w)%N) ws then cdrw_run n ws = UB else
   exists a lost, cdrw_run n ws = Ok a /\ length lost <= width_changes ws /\ forall i, i < n -> cdrw_get a i = Ok (if in_dec Nat.eq_dec i lost then 0%N else last_value ws i)).
Proof.
  intros ws Hw Le. destruct make_cinv as (a0 & E0 & I0). unfold cdrw_run. rewrite E0. cbn [bind].
  destruct (first_top ws Hw) as [Lo|(pre & i & v & post & -> & Lo & Hi & Hv)].
  - assert (Ex : existsb (fun w => (2 ^ 63 <=? snd w)%N) ws = false).
    { clear -Lo. induction Lo as [|w ws (_ & H) F IH]; auto. cbn [existsb]. rewrite IH, orb_false_r. apply N.leb_gt. auto. }
    rewrite Ex. destruct (writes_inv a0 I0 ws Lo Le) as [G|(a & E & I)]; [left; exact G|right]. destruct (get_cinv _ _ _ _ I) as (lost & Ll & Gl). exists a, lost. auto.
  - rewrite app_length in Le. change (2 ^ 49)%N with 562949953421312%N in Le. simpl length in Le.
    destruct (writes_inv a0 I0 pre Lo) as [(p1 & j & x & p2 & a & Ep & E & St & Fu)|(a & E & I)]; [change (2 ^ 49)%N with 562949953421312%N; lia|left; exists p1, j, x, (p2 ++ (i, v) :: post), a; rewrite app_comm_cons, app_assoc, <- Ep; split; auto; split; auto; split; auto; rewrite foldM_app, Fu; reflexivity|right].
    rewrite (proj2 (existsb_exists _ _)); [|exists (i, v); split; [apply in_or_app; simpl; auto|apply N.leb_le; apply Hv]].
    rewrite foldM_app, E. cbn [bind foldM fst snd]. rewrite (set_top a _ _ _ i v I Hi); [reflexivity|apply Hv|apply Hv|change (2 ^ 50 - 1)%N with 1125899906842623%N; lia].
Qed.
Theorem all_writes : forall ws, Forall (fun w => fst w < n /\ (snd w < 2 ^ 64)%N) ws -> (N.of_nat (length ws) < 2 ^ 49)%N ->
  (exists pre post a, ws = pre ++ post /\ cdrw_run n pre = Ok a /\ exists t, In t (cd_tables a) /\ ch_used t = ch_bucket t) \/
  (if existsb (fun w => (2 ^ 63 <=? snd w)%N) ws then cdrw_run n ws = UB else
   exists a lost, cdrw_run n ws = Ok a /\ length lost <= width_changes ws /\ forall i, i < n -> cdrw_get a i = Ok (if in_dec Nat.eq_dec i lost then 0%N else last_value ws i)).
Proof.
  intros ws Hw Le. destruct (all_exact ws Hw Le) as [(pre & i & v & post & a & Ep & E & St & _)|A]; [left|right; exact A]. exists pre, ((i, v) :: post), a. split; auto. split; auto. exact (stuck_full a v St).
Qed.
End Array.
