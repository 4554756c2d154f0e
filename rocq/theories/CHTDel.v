(** Histories of a CHT with erase. *)
From Coq Require Import List NArith ZArith Arith Bool Lia.
From Verif Require Import Base Spec Spec4 Spec8 BitUtilModel FitVectorModel FitVectorProof HashModel HashProof CHTModel CHTRing CHTShift CHTWord CHTProof CHTInsert CHTMain CHTResize CHTRun CHTErase CHTFull.
Import ListNotations.
Local Open Scope nat_scope.

Lemma cnt_filter : forall p n, cnt p 0 (Z.of_nat n) = length (filter (fun i => p (Z.of_nat i)) (seq 0 n)).
Proof.
  intros p n. induction n; auto. rewrite seq_S, filter_app, app_length, <- IHn. replace (Z.of_nat (S n)) with (Z.of_nat n + 1)%Z by lia. rewrite cnt_snoc by lia. simpl. destruct (p (Z.of_nat n)); auto.
Qed.
Lemma last_tab_snoc : forall k ops o, last_tab k (ops ++ [o]) = match o with TabSet k' v => if (k' =? k)%N then Some v else last_tab k ops | _ => last_tab k ops end.
Proof. intros. unfold last_tab. now rewrite fold_left_app. Qed.
Lemma erases_snoc : forall ops o, erases (ops ++ [o]) = erases ops + match o with TabErase _ => 1 | _ => 0 end.
Proof. intros. unfold erases. rewrite filter_app, app_length. now destruct o. Qed.
Lemma remove_le : forall (k : N) l, length (remove N.eq_dec k l) <= length l.
Proof. intros k l. induction l as [|a l IH]; simpl; auto. destruct (N.eq_dec k a); simpl; lia. Qed.

(** a counter that starts at 0 and makes [n] steps up or down *)
Definition szok (n s : nat) : Prop := (N.of_nat s <= N.of_nat n \/ 2 ^ 64 <= N.of_nat s + N.of_nat n)%N /\ (N.of_nat s < 2 ^ 64)%N.
Lemma szok_up : forall n s, (N.of_nat n < 2 ^ 50)%N -> szok n s -> szok (S n) (size_up s).
Proof.
  intros n s Hn (C & Hs). unfold szok, size_up, wrap64. rewrite N2Nat.id. change (2 ^ 64)%N with 18446744073709551616%N in *. change (2 ^ 50)%N with 1125899906842624%N in Hn.
  destruct (N.eq_dec (N.of_nat s) 18446744073709551615) as [E|E].
  - rewrite E. change ((18446744073709551615 + 1) mod 18446744073709551616)%N with 0%N. lia.
  - rewrite N.mod_small by lia. lia.
Qed.
Lemma szok_down : forall n s, (N.of_nat n < 2 ^ 50)%N -> szok n s -> szok (S n) (size_down s).
Proof.
  intros n s Hn (C & Hs). unfold szok, size_down, wsub. rewrite N2Nat.id. change (2 ^ 64)%N with 18446744073709551616%N in *. change (2 ^ 50)%N with 1125899906842624%N in Hn.
  destruct (N.eq_dec (N.of_nat s) 0) as [E|E].
  - rewrite E. change ((0 + 18446744073709551616 - 1) mod 18446744073709551616)%N with 18446744073709551615%N. lia.
  - replace (N.of_nat s + 18446744073709551616 - 1)%N with (N.of_nat s - 1 + 1 * 18446744073709551616)%N by lia. rewrite N.mod_add, N.mod_small by lia. lia.
Qed.
Lemma szok_le : forall n m s, n <= m -> szok n s -> szok m s.
Proof. intros n m s Hn (C & Hs). split; auto. destruct C; [left|right]; lia. Qed.
Lemma szok_twice : forall n s, (N.of_nat n < 2 ^ 50)%N -> szok n s -> size_twice s <= s \/ (N.of_nat (size_twice s) < 2 ^ 52)%N.
Proof.
  intros n s Hn (C & Hs). unfold size_twice, wrap64. change (2 ^ 64)%N with 18446744073709551616%N in *. change (2 ^ 50)%N with 1125899906842624%N in Hn. change (2 ^ 52)%N with 4503599627370496%N.
  destruct C as [C|C].
  - right. rewrite N2Nat.id. rewrite N.mod_small by lia. lia.
  - left. replace (N.of_nat s * 2)%N with (N.of_nat s * 2 - 18446744073709551616 + 1 * 18446744073709551616)%N by lia. rewrite N.mod_add, N.mod_small by lia. lia.
Qed.

Section Del.
Variables (kb VB VW L : nat).
Hypothesis Hkb : kb <= 60.
Hypothesis HL : 1 <= L <= 99.
Hypothesis HVW : 1 <= VW <= 63.
Hypothesis HVB : VB = 0 \/ VB = VW.
Lemma HL100 : 1 <= L <= 100.
Proof using HL. clear - HL. lia. Qed.

Definition flags (t : cht) (l : list N) : nat := cnt (fD l) 0 (Z.of_nat (ch_bucket t)).
(** [m] maps the keys to the values last set, [lost] are the keys forgotten *)
Definition inv (n e : nat) (t : cht) (lost : list N) (m : N -> option N) : Prop :=
  exists l vs H, base kb VW L t l vs H /\
    (forall k v, (k < 2 ^ N.of_nat kb)%N -> (holds kb l vs H k v <-> ~ In k lost /\ m k = Some v)) /\
    length lost + flags t l <= e /\ ch_used t <= n /\ szok n (ch_size t) /\ 1 <= ch_bucket_bits t.

Definition keyf (h : N) : N := match sm_ihash (N.of_nat kb) h with Ok k => k | _ => 0%N end.
Lemma keyf_ok : forall h, (h < 2 ^ N.of_nat kb)%N -> hashf kb (keyf h) = h.
Proof using Hkb. clear HL HVW HVB L VW VB. intros h Hh. destruct (hashf_inv kb (le63 kb Hkb) h Hh) as (k & E & _ & I). unfold keyf. now rewrite E. Qed.
Lemma keyf_hash : forall k, (k < 2 ^ N.of_nat kb)%N -> keyf (hashf kb k) = k.
Proof using Hkb. clear HL HVW HVB L VW VB. intros k Hk. destruct (hashf_ok kb (le63 kb Hkb) k Hk) as (_ & _ & I). unfold keyf. now rewrite I. Qed.
(** the keys of the slots flagged as deleted *)
Definition fkeys (t : cht) (l : list N) (H : Z -> Z) : list N := map (fun i => keyf (hk l H (Z.of_nat i))) (filter (fun i => fD l (Z.of_nat i)) (seq 0 (ch_bucket t))).

Lemma inv_get : forall n e t lost m, inv n e t lost m -> forall k, (k < 2 ^ N.of_nat kb)%N -> cht_get t k = Ok (if in_dec N.eq_dec k lost then None else m k).
Proof.
  intros n e t lost m (l & vs & H & G & P & _) k Hk. destruct (get_ok kb VW L (le63 kb Hkb) t l vs H G k Hk) as [(v & Hv & Eg)|(Hv & Eg)]; rewrite Eg; f_equal.
  - apply P in Hv; auto. destruct Hv as (N1 & N2). destruct (in_dec N.eq_dec k lost); [tauto|]. auto.
  - destruct (in_dec N.eq_dec k lost) as [|NI]; auto. destruct (m k) as [v|] eqn:E; auto. exfalso. apply (Hv v). apply P; auto.
Qed.

(** rebuilding the table *)
Lemma reserve_inv : forall fuel n e t lost m n', (N.of_nat n < 2 ^ 50)%N -> inv n e t lost m -> n' <= ch_size t \/ (N.of_nat n' < 2 ^ 52)%N ->
  exists t1 lost1, cht_reserve_with VB L (cht_set_fuel VB L (S (S fuel))) t n' = Ok t1 /\ inv n e t1 lost1 m /\ (t1 = t \/ ch_used t1 < ch_bucket t1).
Proof.
  intros fuel n e t lost m n' Hn I Hn'. unfold cht_reserve_with. destruct (Nat.leb_spec n' (ch_size t)) as [|Gt]; [exists t, lost; auto|]. destruct Hn' as [|Hn']; [lia|].
  destruct I as (l & vs & H & G & P & F & U & Sz & B1).
  destruct (reserve_bucket kb VB VW L (le63 kb Hkb) HL100 HVW HVB n') as (bb & Eb & Hbb & Hlt & _); [lia|auto|]. apply bind_Ok_inv in Eb. destruct Eb as (bn & Eb & En). injection En as En. cbv zeta. rewrite Eb. cbn [bind]. rewrite En.
  assert (LU : forall y, fL l y = true -> fU l y = true) by (intros y Ly; unfold fL in Ly; apply andb_prop in Ly; tauto).
  assert (Lv : cnt (fL l) 0 (Z.of_nat (ch_bucket t)) <= ch_used t) by (rewrite (g_used _ _ _ _ _ _ _ G); apply cnt_mono_p; auto).
  change (2 ^ 50)%N with 1125899906842624%N in Hn.
  assert (Wb : kb <= 59 + bb). { assert (Q1 : 1 <= n' * 99 / L) by (apply Nat.div_le_lower_bound; clear - HL Gt; nia). destruct bb; [simpl in Hlt; lia|lia]. }
  destruct (resize_base kb VB VW L (le63 kb Hkb) HL100 HVW HVB (cht_set_fuel VB L (S (S fuel))) (fun _ => True) t l vs H bb G Hbb Wb (reserve_max kb VB VW L (le63 kb Hkb) HL100 HVW HVB n' bb ltac:(lia) Hlt)) as (t1 & E1 & R1 & _ & S1); auto.
  { intros nt P' k' v' Rn _ Hk' Hv' Fr Lt. destruct (set_any kb VB VW L (le63 kb Hkb) HL100 HVW HVB fuel nt P' k' v' Rn Hk' Hv') as (nt' & E' & R' & [((v0 & C) & _)|(_ & S')]); [change (2 ^ 51)%N with 2251799813685248%N; lia| |].
    - exfalso. eapply Fr; eauto.
    - exists nt'. auto. }
  exists t1, (lost ++ fkeys t l H). split; auto. destruct R1 as (l1 & vs1 & H1 & G1 & P1).
  assert (Bp : 1 <= ch_bucket_bits t1) by (apply (bits_pos L HL); apply G1).
  split.
  2:{ right. apply Nat.le_lt_trans with (1 := g_le _ _ _ _ _ _ _ G1). rewrite (g_max _ _ _ _ _ _ _ G1). pose proof (a_B _ _ _ _ (g_a _ _ _ _ _ _ _ G1)). apply Nat.div_lt_upper_bound; [lia|]. clear - H0 HL. nia. }
  exists l1, vs1, H1. split; [apply G1|]. split; [|split; [|split; [|split; [|exact Bp]]]].
  - intros k v Hk. rewrite <- P1 by auto. pose proof (a_B _ _ _ _ (g_a _ _ _ _ _ _ _ G)) as HB. split.
    + intros (z & Lz & Hz & Vz). assert (Hh : holds kb l vs H k v) by (exists z; auto). apply P in Hh; auto. destruct Hh as (N1 & N2). split; auto. intros IA. apply in_app_or in IA. destruct IA as [|IA]; [tauto|].
      unfold fkeys in IA. apply in_map_iff in IA. destruct IA as (i & Ei & IA). apply filter_In in IA. destruct IA as (_ & Di).
      assert (Ui : fU l (Z.of_nat i) = true) by now apply (g_del _ _ _ _ _ _ _ G).
      assert (EI : idx (ch_bucket t) z = idx (ch_bucket t) (Z.of_nat i)).
      { apply (entry_unique kb VW L t l vs H G); auto. rewrite Hz, <- Ei. apply keyf_ok. now apply (g_range _ _ _ _ _ _ _ G). }
      unfold fL in Lz. apply andb_prop in Lz. destruct Lz as (_ & Dz). unfold fD in Dz, Di.
      rewrite (wd_idx kb VW L t l vs H G l z (Z.of_nat i) (lenB kb VW L t l vs H G) EI), Di in Dz. discriminate.
    + intros (N1 & N2). assert (Hh : holds kb l vs H k v) by (apply P; auto; split; auto; intros I; apply N1, in_or_app; auto). destruct Hh as (z & Uz & Hz & Vz). exists z. split; auto.
      unfold fL. rewrite Uz. destruct (fD l z) eqn:Dz; auto. exfalso. apply N1, in_or_app. right. unfold fkeys. apply in_map_iff. set (B := ch_bucket t) in *.
      pose proof (idx_lt B HB z) as Lt. assert (EI : idx B (Z.of_nat (idx B z)) = idx B z) by (rewrite idx_of_nat by auto; auto).
      assert (EB : idx (ch_bucket t) (Z.of_nat (idx B z)) = idx (ch_bucket t) z) by exact EI.
      pose proof (wd_idx kb VW L t l vs H G l _ _ (lenB kb VW L t l vs H G) EB) as Ew.
      exists (idx B z). split.
      * rewrite <- (keyf_hash k Hk), <- Hz. f_equal. unfold hk, fQ. rewrite Ew. f_equal. f_equal. rewrite (lenB kb VW L t l vs H G). fold B.
        apply (idx_eq B HB) in EI. pose proof (Z.div_mod (Z.of_nat (idx B z) - z) (Z.of_nat B) ltac:(lia)) as DM. rewrite EI in DM.
        replace (Z.of_nat (idx B z)) with (z + (Z.of_nat (idx B z) - z) / Z.of_nat B * Z.of_nat B)%Z by lia. rewrite (r_perH _ _ _ _ _ _ (g_ring _ _ _ _ _ _ _ G)). apply Z.mod_add. lia.
      * apply filter_In. split; [apply in_seq; lia|]. unfold fD. rewrite Ew. exact Dz.
  - rewrite app_length. unfold flags in *. rewrite (cnt_none (fD l1)) by (intros; apply (g_nodel _ _ _ _ _ _ _ G1)). unfold fkeys. rewrite map_length, <- cnt_filter. lia.
  - rewrite <- (g_size _ _ _ _ _ _ _ G1), S1. lia.
  - rewrite S1. unfold szok. change (2 ^ 64)%N with 18446744073709551616%N. lia.
Qed.

Definition updm (m : N -> option N) (k v : N) : N -> option N := fun k' => if (k =? k')%N then Some v else m k'.
Lemma set_inv : forall n e t lost m k v, (N.of_nat n < 2 ^ 50)%N -> inv n e t lost m -> (k < 2 ^ N.of_nat kb)%N -> (v < 2 ^ N.of_nat VW)%N ->
  (exists t' lost', cht_set VB L t k v = Ok t' /\ inv (S n) e t' lost' (updm m k v)) \/
  (cht_set VB L t k v = Fuel /\ ch_used t = ch_bucket t /\ cht_get t k = Ok None /\ forall fuel i, i < ch_bucket t -> find_null fuel t i = Fuel).
Proof.
  intros n e t lost m k v Hn I Hk Hv. unfold cht_set. cbn [cht_set_fuel].
  assert (G1 : exists t1 lost1, (if cht_is_filled t then cht_reserve_with VB L (cht_set_fuel VB L 3) t (size_twice (ch_size t)) else Ok t) = Ok t1 /\ inv n e t1 lost1 m /\ (t1 = t \/ ch_used t1 < ch_bucket t1)).
  { destruct (cht_is_filled t); [|eauto 6]. apply (reserve_inv 1 n e t lost m); auto. destruct I as (l & vs & H & _ & _ & _ & _ & Sz & _). now apply szok_twice with n. }
  destruct G1 as (t1 & lost1 & E1 & I1 & Tt). cbn [cht_set_fuel] in E1. rewrite E1. cbn [bind]. clear E1 I lost. destruct I1 as (l & vs & H & G & P & F & U & Sz & B1).
  destruct (used_small kb VW L t1 l vs H G) as (Us & _).
  assert (Ca : ((exists v0, holds kb l vs H k v0) \/ ch_used t1 < ch_bucket t1) \/ ((forall v0, ~ holds kb l vs H k v0) /\ ch_used t1 = ch_bucket t1)).
  { destruct (Nat.eq_dec (ch_used t1) (ch_bucket t1)); [|left; right; lia]. destruct (get_ok kb VW L (le63 kb Hkb) t1 l vs H G k Hk) as [(v0 & Hv0 & _)|(Nv & _)]; eauto. }
  destruct Ca as [Ca|(No & Fu)].
  - left. destruct (insert_base kb VW L (le63 kb Hkb) t1 l vs H G k v Hk Hv Ca) as (t' & E' & B' & C' & l' & vs' & H' & G' & D' & P').
    exists t', (remove N.eq_dec k lost1). split; auto. exists l', vs', H'. split; auto. split; [|split; [|split; [|split]]].
    + intros k' v' Hk'. rewrite P' by auto. unfold upP, updm. rewrite (N.eqb_sym k k'). destruct (N.eqb_spec k' k) as [->|Nk].
      * split; [intros ->; split; auto; apply remove_In|intros (_ & E); congruence].
      * rewrite P by auto. split; intros (N1 & N2); split; auto; intros IR; apply N1; [apply in_remove in IR; tauto|apply in_in_remove; auto].
    + unfold flags in *. rewrite B'. pose proof (remove_le k lost1). pose proof (cnt_mono_p (fD l') (fD l) 0 (Z.of_nat (ch_bucket t1)) ltac:(auto)). lia.
    + destruct C' as [(_ & -> & _)|(_ & -> & _)]; lia.
    + destruct C' as [(_ & _ & [ -> | (_ & ->) ])|(_ & _ & ->)]; [apply szok_le with n; auto| |]; now apply szok_up.
    + rewrite (g_bb _ _ _ _ _ _ _ G), (g_bb _ _ _ _ _ _ _ G') in B'. apply Nat.pow_inj_r in B'; lia.
  - right. assert (t1 = t) by (destruct Tt; auto; lia). subst t1. split; [now apply (insert_full kb VW L (le63 kb Hkb) t l vs H)|]. split; auto. split.
    + destruct (get_ok kb VW L (le63 kb Hkb) t l vs H G k Hk) as [(v0 & Hv0 & _)|(_ & Eg)]; auto. exfalso. eapply No; eauto.
    + now apply (full_endless kb VW L t l vs H).
Qed.
Lemma erase_inv : forall n e t lost m k, (N.of_nat n < 2 ^ 50)%N -> inv n e t lost m -> (k < 2 ^ N.of_nat kb)%N ->
  exists t' lost', cht_erase VB L t k = Ok t' /\ inv (S n) (S e) t' lost' m /\ (ch_used t < ch_bucket t -> ch_used t' < ch_bucket t').
Proof.
  intros n e t lost m k Hn I Hk. unfold cht_erase.
  assert (G1 : exists t1 lost1, (if ch_size t =? ch_min t then cht_reserve VB L t (size_twice (ch_size t)) else Ok t) = Ok t1 /\ inv n e t1 lost1 m /\ (ch_used t < ch_bucket t -> ch_used t1 < ch_bucket t1)).
  { destruct (ch_size t =? ch_min t); [|eauto 6]. destruct (reserve_inv 2 n e t lost m (size_twice (ch_size t))) as (t1 & lost1 & E1 & I1 & Tt); eauto; [|exists t1, lost1; split; auto; split; auto; destruct Tt as [->|]; auto]. destruct I as (l & vs & H & _ & _ & _ & _ & Sz & _). now apply szok_twice with n. }
  destruct G1 as (t1 & lost1 & E1 & I1 & Rm). rewrite E1. cbn [bind]. clear E1 I. destruct I1 as (l & vs & H & G & P & F & U & Sz & B1).
  destruct (erase_base kb VB VW L Hkb HL HVW HVB t1 l vs H k G B1 Hk) as (t' & l' & E' & G' & B' & U' & P' & S' & D'). exists t', lost1. split; auto. split; [|rewrite U', B'; auto]. clear Rm t lost. exists l', vs, H. split; auto. split; [|split; [|split; [|split]]].
  - intros k' v' Hk'. rewrite P'. now apply P.
  - unfold flags in *. rewrite B'. lia.
  - lia.
  - destruct S' as [-> | ->]; [apply szok_le with n; auto|now apply szok_down].
  - rewrite (g_bb _ _ _ _ _ _ _ G), (g_bb _ _ _ _ _ _ _ G') in B'. apply Nat.pow_inj_r in B'; lia.
Qed.

(** a history which fills the table and then sets a key that is not found *)
Definition stuck (run : list tab_op -> res cht) (ops : list tab_op) : Prop :=
  exists pre k v post t, ops = pre ++ TabSet k v :: post /\ run pre = Ok t /\ ch_used t = ch_bucket t /\ cht_get t k = Ok None /\
    (forall fuel i, i < ch_bucket t -> find_null fuel t i = Fuel) /\ run ops = Fuel.
Lemma tab_ok : forall bb ops, 1 <= bb <= 60 -> 1 <= 2 ^ bb * L / 100 -> (N.of_nat (length ops) < 2 ^ 50)%N -> Forall (tab_op_in kb VW) ops ->
  stuck (tab_run VB L kb (2 ^ bb) VW) ops \/
  (exists t lost, tab_run VB L kb (2 ^ bb) VW ops = Ok t /\ inv (length ops) (erases ops) t lost (fun k => last_tab k ops)).
Proof.
  intros bb ops Hbb Hmax. unfold stuck, tab_run. destruct (start_rep kb VB VW L (le63 kb Hkb) HL100 HVW HVB bb (proj2 Hbb) ltac:(lia) Hmax) as (t0 & E0 & R0 & S0 & _). rewrite E0. cbn [bind]. clear E0.
  induction ops as [|o ops IH] using rev_ind; intros Hn Ho.
  - right. exists t0, []. split; auto. destruct R0 as (l & vs & H & G & P). exists l, vs, H. split; [apply G|]. split; [|split; [|split; [|split]]].
    + intros k v Hk. rewrite <- P by auto. unfold last_tab. simpl. split; [tauto|]. intros (_ & D). discriminate.
    + unfold flags. rewrite (cnt_none (fD l)) by (intros; apply (g_nodel _ _ _ _ _ _ _ G)). simpl. lia.
    + rewrite <- (g_size _ _ _ _ _ _ _ G), S0. auto.
    + rewrite S0. unfold szok. change (2 ^ 64)%N with 18446744073709551616%N. simpl. lia.
    + apply (bits_pos L HL); apply G.
  - rewrite app_length in Hn. simpl in Hn. rewrite Forall_app in Ho. destruct Ho as (Ho & Ho1). inversion Ho1; subst.
    destruct IH as [(pre & k & v & post & t & Eo & E & Fu & Gn & En & Er)|(t & lost & E & I)]; [lia|auto| |].
    + left. exists pre, k, v, (post ++ [o]), t. split; [rewrite Eo, <- app_assoc; reflexivity|]. repeat (split; auto). rewrite foldM_app, Er. reflexivity.
    + assert (Hn' : (N.of_nat (length ops) < 2 ^ 50)%N) by lia.
      assert (Lo : length (ops ++ [o]) = S (length ops)) by (rewrite app_length; simpl; lia).
      assert (Run : forall r, tab_step VB L t o = r -> foldM (tab_step VB L) (ops ++ [o]) t0 = r) by (intros r Et; rewrite foldM_app, E; cbn [bind foldM]; rewrite Et; now destruct r).
      assert (Ext : forall n e t' lost' m m', (forall k, m k = m' k) -> inv n e t' lost' m -> inv n e t' lost' m').
      { intros n e t' lost' m m' Em (l & vs & H & G & P & Rest). exists l, vs, H. split; auto. split; auto. intros k v Hk. rewrite P by auto. now rewrite Em. }
      rewrite Lo. destruct o as [k v|n'|k]; simpl in H1; cbn [tab_step] in Run.
      * destruct H1 as (Hk & Hv). destruct (set_inv _ _ t lost _ k v Hn' I Hk Hv) as [(t' & lost' & E' & I')|(E' & Fu & Gn & En)].
        -- right. exists t', lost'. split; auto. rewrite erases_snoc, Nat.add_0_r. apply Ext with (2 := I'). intros k'. rewrite last_tab_snoc. reflexivity.
        -- left. exists ops, k, v, [], t. repeat (split; auto).
      * destruct (reserve_inv 2 _ _ t lost _ n' Hn' I) as (t' & lost' & E' & I' & _). { right. change (2 ^ 52)%N with 4503599627370496%N. change (2 ^ 50)%N with 1125899906842624%N in H1. lia. }
        right. exists t', lost'. split; auto. rewrite erases_snoc, Nat.add_0_r. apply Ext with (m := fun k => last_tab k ops); [intros k'; now rewrite last_tab_snoc|].
        destruct I' as (l & vs & H & G & P & F & U & Sz & B1). exists l, vs, H. split; auto. split; auto. split; auto. split; [lia|]. split; auto. apply szok_le with (2 := Sz). lia.
      * destruct (erase_inv _ _ t lost _ k Hn' I H1) as (t' & lost' & E' & I' & _). right. exists t', lost'. split; auto. rewrite erases_snoc, Nat.add_1_r. apply Ext with (2 := I'). intros k'. now rewrite last_tab_snoc.
Qed.
Theorem tab_exact : forall bb ops, 1 <= bb <= 60 -> 1 <= 2 ^ bb * L / 100 -> (N.of_nat (length ops) < 2 ^ 50)%N -> Forall (tab_op_in kb VW) ops ->
  stuck (tab_run VB L kb (2 ^ bb) VW) ops \/
  (exists t lost, tab_run VB L kb (2 ^ bb) VW ops = Ok t /\ length lost <= erases ops /\
    forall k, (k < 2 ^ N.of_nat kb)%N -> cht_get t k = Ok (if in_dec N.eq_dec k lost then None else last_tab k ops)).
Proof.
  intros bb ops Hbb Hmax Hn Ho. destruct (tab_ok bb ops Hbb Hmax Hn Ho) as [F|(t & lost & E & I)]; [left; auto|]. right. exists t, lost. split; auto. split.
  - destruct I as (l & vs & H & _ & _ & F & _). lia.
  - now apply (inv_get _ _ _ _ _ I).
Qed.
Theorem tab_correct : forall bb ops, 1 <= bb <= 60 -> 1 <= 2 ^ bb * L / 100 -> (N.of_nat (length ops) < 2 ^ 50)%N -> Forall (tab_op_in kb VW) ops ->
  (exists pre post t, ops = pre ++ post /\ tab_run VB L kb (2 ^ bb) VW pre = Ok t /\ ch_used t = ch_bucket t) \/
  (exists t lost, tab_run VB L kb (2 ^ bb) VW ops = Ok t /\ length lost <= erases ops /\
    forall k, (k < 2 ^ N.of_nat kb)%N -> cht_get t k = Ok (if in_dec N.eq_dec k lost then None else last_tab k ops)).
Proof.
  intros bb ops Hbb Hmax Hn Ho. destruct (tab_exact bb ops Hbb Hmax Hn Ho) as [(pre & k & v & post & t & Eo & E & Fu & _)|F]; [left|right; auto]. exists pre, (TabSet k v :: post), t. auto.
Qed.

(** tables with a free slot *)
Definition invr (n e : nat) (t : cht) (lost : list N) (m : N -> option N) : Prop := inv n e t lost m /\ ch_used t < ch_bucket t.
Lemma invr_get : forall n e t lost m, invr n e t lost m -> forall k, (k < 2 ^ N.of_nat kb)%N -> cht_get t k = Ok (if in_dec N.eq_dec k lost then None else m k).
Proof. intros n e t lost m (I & _). now apply inv_get with (1 := I). Qed.
Lemma set_invr : forall n e t lost m k v, (N.of_nat n < 2 ^ 50)%N -> invr n e t lost m -> (k < 2 ^ N.of_nat kb)%N -> (v < 2 ^ N.of_nat VW)%N ->
  exists t', cht_set VB L t k v = Ok t' /\ (ch_used t' = ch_bucket t' \/ exists lost', invr (S n) e t' lost' (updm m k v)).
Proof.
  intros n e t lost m k v Hn (I & Lt) Hk Hv. destruct (set_inv n e t lost m k v Hn I Hk Hv) as [(t' & lost' & E & I')|(_ & Fu & _)]; [|lia].
  exists t'. split; auto. destruct I' as (l & vs & H & G & R). destruct (used_small kb VW L t' l vs H G) as (Us & _).
  destruct (Nat.eq_dec (ch_used t') (ch_bucket t')); [left; auto|right]. exists lost'. split; [|lia]. exists l, vs, H. auto.
Qed.
Lemma erase_invr : forall n e t lost m k, (N.of_nat n < 2 ^ 50)%N -> invr n e t lost m -> (k < 2 ^ N.of_nat kb)%N ->
  exists t' lost', cht_erase VB L t k = Ok t' /\ invr (S n) (S e) t' lost' m.
Proof.
  intros n e t lost m k Hn (I & Lt) Hk. destruct (erase_inv n e t lost m k Hn I Hk) as (t' & lost' & E & I' & U). exists t', lost'. split; auto. split; auto.
Qed.
End Del.
