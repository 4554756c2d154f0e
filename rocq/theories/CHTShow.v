(** Proofs about CHTShowModel.v *)
From Coq Require Import List NArith ZArith Arith Bool Lia.
From Verif Require Import Base Spec Spec4 Spec15 FitVectorModel HashModel CHTModel CHTRing CHTShift CHTWord CHTProof CHTInsert CHTMain CHTResize CHTRun CHTWide InitShowModel InitShow CHTShowSpec CHTShowModel.
Import ListNotations.
Local Open Scope nat_scope.

(** ** counting *)
Lemma cnt_list : forall p n, cnt p 0 (Z.of_nat n) = length (filter (fun i => p (Z.of_nat i)) (seq 0 n)).
Proof.
  intros p. induction n.
  - now rewrite cnt_nil by lia.
  - rewrite seq_S, filter_app, app_length, <- IHn. replace (Z.of_nat (S n)) with (Z.of_nat n + 1)%Z by lia. rewrite cnt_snoc by lia. cbn [Nat.add filter]. destruct (p (Z.of_nat n)); reflexivity.
Qed.
Lemma choose_list : forall (f : nat -> nat -> Prop) l l', NoDup l -> (forall x, In x l -> exists y, In y l' /\ f x y) -> (forall x x' y, In x l -> In x' l -> f x y -> f x' y -> x = x') ->
  exists m, length m = length l /\ NoDup m /\ incl m l' /\ forall y, In y m -> exists x, In x l /\ f x y.
Proof.
  intros f l l' D. induction D as [|x l Nx D IH]; intros T I.
  - exists []. split; [reflexivity|]. split; [constructor|]. split; [intros y []|intros y []].
  - destruct IH as (m & Lm & Dm & Im & Fm). { intros y Hy. apply T. now right. } { intros y y' z Hy Hy'. apply I; now right. }
    destruct (T x (or_introl eq_refl)) as (y & Iy & Fy). exists (y :: m). split; [cbn; lia|]. split; [|split].
    + constructor; auto. intros Iym. destruct (Fm y Iym) as (x' & Ix' & Fx'). assert (x = x') by (apply (I x x' y); auto; [now left|now right]). subst x'. auto.
    + intros z [<-|Hz]; auto.
    + intros z [<-|Hz]; [exists x; split; auto; now left|]. destruct (Fm z Hz) as (x' & Ix' & Fx'). exists x'. split; auto. now right.
Qed.
Lemma choose_le : forall (f : nat -> nat -> Prop) l l', NoDup l -> (forall x, In x l -> exists y, In y l' /\ f x y) -> (forall x x' y, In x l -> In x' l -> f x y -> f x' y -> x = x') -> length l <= length l'.
Proof. intros f l l' D T I. destruct (choose_list f l l' D T I) as (m & <- & Dm & Im & _). now apply NoDup_incl_length. Qed.
Lemma filter_split : forall A (p q : A -> bool) l, (forall x, q x = true -> p x = true) -> length (filter q l) + length (filter (fun x => p x && negb (q x)) l) = length (filter p l).
Proof. intros A p q l H. induction l as [|x l IH]; cbn [filter length]; auto. specialize (H x). destruct (q x), (p x); cbn [andb negb length]; try lia; specialize (H eq_refl); discriminate. Qed.
Lemma filter_sub : forall A (p q : A -> bool) l, (forall x, q x = true -> p x = true) -> length (filter q l) <= length (filter p l).
Proof. intros A p q l H. pose proof (filter_split A p q l H). lia. Qed.

(** ** one run for every slot flagged as occupied *)
Section Heads.
Variables (B : nat) (U O C S : Z -> bool) (H : Z -> Z).
Hypothesis R : ring (Z.of_nat B) U O C S H.
Definition slots (p : Z -> bool) : list nat := filter (fun i => p (Z.of_nat i)) (seq 0 B).
Lemma in_slots : forall p i, In i (slots p) <-> i < B /\ p (Z.of_nat i) = true.
Proof. intros p i. unfold slots. rewrite filter_In, in_seq. split; intros (X & Y); split; auto; lia. Qed.
Lemma slots_nodup : forall p, NoDup (slots p).
Proof. intros. apply NoDup_filter, seq_NoDup. Qed.
Lemma head_first : forall z y, U z = true -> C z = false -> U y = true -> H y = H z -> (z <= y)%Z.
Proof.
  intros z y Uz Cz Uy E. assert (Oz : O (H z) = true) by (apply (home_occ _ _ _ _ _ _ R); auto). destruct (ins_exists _ _ _ _ _ _ R (H z)) as (i & I & Hi).
  destruct (run_start _ _ _ _ _ _ R (H z) i I Oz) as (Ui & Ei & G). destruct (run_end_exists _ _ _ _ _ _ R (H z) i I Oz) as (e & Re & _).
  destruct (run_all _ _ _ _ _ _ R (H z) i e z I Oz Re Uz eq_refl) as (Z1 & Z2). destruct (Z.eq_dec i z) as [<-|Ne]; [now apply G|].
  exfalso. pose proof (run_cont _ _ _ _ _ _ R (H z) i e (z - 1) Re ltac:(lia) ltac:(lia)) as X. replace (z - 1 + 1)%Z with z in X by lia. congruence.
Qed.
Definition starts (b z : nat) : Prop := U (Z.of_nat z) = true /\ C (Z.of_nat z) = false /\ exists m, H (Z.of_nat z) = (Z.of_nat b + m * Z.of_nat B)%Z.
Lemma mult_small : forall x y m, (0 <= x < Z.of_nat B)%Z -> (0 <= y < Z.of_nat B)%Z -> x = (y + m * Z.of_nat B)%Z -> m = 0%Z.
Proof. intros x y m X Y E. nia. Qed.
Lemma heads_count : length (slots (fun z => U z && negb (C z))) = length (slots O).
Proof.
  assert (BB : (1 <= Z.of_nat B)%Z) by apply R.
  assert (perU := perU _ _ _ _ _ _ R). assert (perC := r_perC _ _ _ _ _ _ R). assert (perH := r_perH _ _ _ _ _ _ R).
  assert (HD : forall i, In i (slots (fun z => U z && negb (C z))) -> i < B /\ U (Z.of_nat i) = true /\ C (Z.of_nat i) = false).
  { intros i I. apply in_slots in I. destruct I as (I1 & I2). apply andb_prop in I2. destruct I2 as (I2 & I3). apply negb_true_iff in I3. auto. }
  apply Nat.le_antisymm.
  - apply (choose_le (fun z b => starts b z)); [apply slots_nodup| |].
    + intros z I. apply HD in I. destruct I as (Hz & Uz & Cz). exists (Z.to_nat (H (Z.of_nat z) mod Z.of_nat B)). pose proof (Z.mod_pos_bound (H (Z.of_nat z)) (Z.of_nat B) ltac:(lia)) as Mb.
      pose proof (Z.div_mod (H (Z.of_nat z)) (Z.of_nat B) ltac:(lia)) as Dm. split.
      * apply in_slots. split; [lia|]. rewrite Z2Nat.id by lia. assert (Oz : O (H (Z.of_nat z)) = true) by (apply (home_occ _ _ _ _ _ _ R); auto).
        rewrite <- (r_perO _ _ _ _ _ _ R _ (H (Z.of_nat z) / Z.of_nat B)%Z). replace (_ + _)%Z with (H (Z.of_nat z)); [exact Oz|lia].
      * split; auto. split; auto. exists (H (Z.of_nat z) / Z.of_nat B)%Z. rewrite Z2Nat.id by lia. lia.
    + intros z z' b I I' (Uz & Cz & m & Ez) (Uz' & Cz' & m' & Ez'). apply HD in I. apply HD in I'. destruct I as (I & _). destruct I' as (I' & _).
      assert (Es : H (Z.of_nat z' + (m - m') * Z.of_nat B) = H (Z.of_nat z)) by (rewrite perH; lia).
      assert (Us : U (Z.of_nat z' + (m - m') * Z.of_nat B) = true) by now rewrite perU. assert (Cs : C (Z.of_nat z' + (m - m') * Z.of_nat B) = false) by now rewrite perC.
      pose proof (head_first _ _ Uz Cz Us Es). pose proof (head_first _ _ Us Cs Uz (eq_sym Es)).
      assert (E : Z.of_nat z = (Z.of_nat z' + (m - m') * Z.of_nat B)%Z) by lia. apply mult_small in E as E0; [|lia|lia]. rewrite E0 in E. lia.
  - apply (choose_le starts); [apply slots_nodup| |].
    + intros b I. apply in_slots in I. destruct I as (Hb & Ob). destruct (ins_exists _ _ _ _ _ _ R (Z.of_nat b)) as (i & I & Hi). destruct (run_start _ _ _ _ _ _ R (Z.of_nat b) i I Ob) as (Ui & Ei & _).
      pose proof (ins_not_cont _ _ _ _ _ _ R (Z.of_nat b) i I) as Ci. pose proof (Z.mod_pos_bound i (Z.of_nat B) ltac:(lia)) as Mb. pose proof (Z.div_mod i (Z.of_nat B) ltac:(lia)) as Dm.
      assert (Ej : (i mod Z.of_nat B = i + - (i / Z.of_nat B) * Z.of_nat B)%Z) by lia. exists (Z.to_nat (i mod Z.of_nat B)). unfold starts. rewrite in_slots, Z2Nat.id by lia. rewrite Ej, perU, perC, perH, Ui, Ci, Ei.
      split; [split; auto; rewrite <- Ej; lia|]. split; auto. split; auto. eauto.
    + intros b b' z I I' (_ & _ & m & E) (_ & _ & m' & E'). apply in_slots in I. apply in_slots in I'. assert (X : Z.of_nat b = (Z.of_nat b' + (m' - m) * Z.of_nat B)%Z) by lia.
      apply mult_small in X as X0; [|lia|lia]. rewrite X0 in X. lia.
Qed.
Lemma cont_count : length (slots C) + length (slots O) = length (slots U).
Proof. rewrite <- heads_count. unfold slots. apply (filter_split nat (fun i => U (Z.of_nat i)) (fun i => C (Z.of_nat i))). intros i X. now apply (r_C _ _ _ _ _ _ R) in X. Qed.
Lemma cont_shifted : forall z, C z = true -> S z = true.
Proof.
  intros z X. apply (r_C _ _ _ _ _ _ R) in X. destruct X as (U1 & U2 & E). apply (r_S _ _ _ _ _ _ R). split; auto. destruct (r_le _ _ _ _ _ _ R (z - 1)%Z U2). lia.
Qed.
End Heads.

(** ** the rows *)
Definition row (l : list N) (i : nat) : bool * bool * bool := (fO l (Z.of_nat i), fC l (Z.of_nat i), fS l (Z.of_nat i)).
Lemma fold_count : forall (rows : list (bool * bool * bool)) c, fold_left (fun c (r : bool * bool * bool) => if snd r then S c else c) rows c = c + count_if (fun r : bool * bool * bool => snd r) rows.
Proof. unfold count_if. induction rows as [|r rows IH]; intros c; cbn [fold_left filter]; [cbn; lia|]. rewrite IH. destruct (snd r); cbn [length]; lia. Qed.
Lemma count_rows : forall l n (p : bool * bool * bool -> bool), count_if p (map (row l) (seq 0 n)) = length (filter (fun i => p (row l i)) (seq 0 n)).
Proof. intros l n p. unfold count_if. generalize 0. induction n; intros k; cbn [seq map filter]; auto. destruct (p (row l k)); cbn [length]; now rewrite IHn. Qed.

Lemma print_rows : forall VW t l vs, arrs VW t l vs -> cht_print t = if (N.of_nat (ch_bucket t) <? 2 ^ 31)%N
  then Ok (map (row l) (seq 0 (ch_bucket t)), length (slots (ch_bucket t) (fS l))) else UB.
Proof.
  intros VW t l vs A. unfold cht_print. rewrite (for_int_ok _ _ (row l)).
  - destruct (N.of_nat (ch_bucket t) <? 2 ^ 31)%N; [|reflexivity]. cbn [bind]. rewrite fold_count. cbn [Nat.add]. now rewrite count_rows.
  - intros i Hi. pose proof (get_arr VW t l vs A (Z.of_nat i)) as E. assert (Ei : idx (ch_bucket t) (Z.of_nat i) = i) by (unfold idx; rewrite Z.mod_small by lia; lia).
    rewrite Ei in E. rewrite E. cbn [bind]. now rewrite is_occupied_eq, is_continuation_eq, is_shifted_eq.
Qed.

Lemma keys_in : forall kb VW ops k, Forall (map_op_in kb VW) ops -> In k (map_keys ops) -> (k < 2 ^ N.of_nat kb)%N.
Proof.
  intros kb VW ops k F I. unfold map_keys in I. apply in_flat_map in I. destruct I as (o & Io & Ik). rewrite Forall_forall in F. specialize (F o Io). destruct o; cbn in *; [|tauto].
  destruct Ik as [<-|[]]. apply F.
Qed.

Lemma set_in : forall k ops, (exists v, last_set k ops = Some v) <-> In k (map_keys ops).
Proof. apply (last_set_in 0 1 1); [lia|lia|auto]. Qed.

Definition flags_of (kb : nat) (ops : list map_op) (B : nat) (rows : list (bool * bool * bool)) (c : nat) : Prop :=
  length rows = B /\
  (forall b, b < B -> (fst (fst (nth b rows (false, false, false))) = true <-> exists k, In k (map_keys ops) /\ home kb B k = b)) /\
  count_if (fun r : bool * bool * bool => fst (fst r) || snd (fst r) || snd r) rows = distinct_keys ops /\
  count_if (fun r : bool * bool * bool => snd (fst r)) rows + length (nodup Nat.eq_dec (map (home kb B) (map_keys ops))) = distinct_keys ops /\
  (forall r, In r rows -> snd (fst r) = true -> snd r = true) /\
  c = count_if (fun r : bool * bool * bool => snd r) rows.

Lemma rep_flags : forall kb VW L t ops, kb <= 63 -> Forall (map_op_in kb VW) ops -> rep kb VW L t (mapP ops) -> ch_size t = distinct_keys ops ->
  (exists rows c, cht_print t = (if (N.of_nat (ch_bucket t) <? 2 ^ 31)%N then Ok (rows, c) else UB) /\ flags_of kb ops (ch_bucket t) rows c).
Proof.
  intros kb VW L t ops Hkb F (l & vs & H & G & P) Sz. pose proof (g_base _ _ _ _ _ _ _ G) as Gb. pose proof (g_a _ _ _ _ _ _ _ Gb) as A. pose proof (g_ring _ _ _ _ _ _ _ Gb) as R.
  pose proof (print_rows VW t l vs A) as Pr. set (B := ch_bucket t) in *. exists (map (row l) (seq 0 B)), (length (slots B (fS l))). split; auto.
  assert (B1 : 1 <= B) by apply A.
  assert (Occ : forall b, b < B -> (fO l (Z.of_nat b) = true <-> exists k, In k (map_keys ops) /\ home kb B k = b)).
  { intros b Hb. split.
    - intros Ob. apply (r_O _ _ _ _ _ _ R) in Ob. destruct Ob as (z & Uz & Ez). destruct (hashf_inv kb Hkb (hk l H z)) as (k & _ & Hk & Ek); [now apply (g_range _ _ _ _ _ _ _ Gb)|].
      exists k. split.
      + apply set_in. exists (wd vs z). apply P; auto. exists z. auto.
      + assert (X : (H z mod Z.of_nat B)%Z = home_of t (hashf kb k)) by (apply (hk_eq kb VW L t l vs H Gb z (hashf kb k)); auto). rewrite Ez, Z.mod_small in X by lia.
        unfold home_of in X. fold B in X. unfold home. fold (hashf kb k). lia.
    - intros (k & Ik & Ek). pose proof (keys_in kb VW ops k F Ik) as Hk. apply set_in in Ik. destruct Ik as (v & Ev). apply (P k v Hk) in Ev. destruct Ev as (z & Uz & Ez & _).
      destruct (entry_at_home kb VW L t l vs H Gb z (hashf kb k) Uz Ez) as (y & Uy & Hy & _). apply (r_O _ _ _ _ _ _ R). exists y. split; auto. rewrite Hy. unfold home_of. fold B. unfold home in Ek. fold (hashf kb k) in Ek. lia. }
  assert (Used : length (slots B (fU l)) = distinct_keys ops).
  { rewrite <- Sz, (g_size _ _ _ _ _ _ _ G), (g_used _ _ _ _ _ _ _ Gb). symmetry. apply cnt_list. }
  assert (Homes : length (nodup Nat.eq_dec (map (home kb B) (map_keys ops))) = length (slots B (fO l))).
  { assert (HB : forall k, home kb B k < B). { intros k. unfold home. set (x := match sm_hash _ k with Ok h => h | _ => 0%N end). pose proof (N.mod_upper_bound x (N.of_nat B) ltac:(lia)). lia. }
    apply Nat.le_antisymm; apply NoDup_incl_length; try apply NoDup_nodup; try apply slots_nodup.
    - intros b I. apply nodup_In, in_map_iff in I. destruct I as (k & <- & Ik). apply in_slots. split; auto. apply Occ; eauto.
    - intros b I. apply in_slots in I. destruct I as (Hb & Ob). apply nodup_In, in_map_iff. apply Occ in Ob; auto. destruct Ob as (k & Ik & Ek). eauto. }
  unfold flags_of. split; [now rewrite map_length, seq_length|]. split; [|split; [|split; [|split]]].
  - intros b Hb. rewrite <- (Occ b Hb). rewrite (nth_indep _ (false, false, false) (row l 0)) by now rewrite map_length, seq_length. rewrite map_nth, seq_nth by auto. cbn [Nat.add row fst]. reflexivity.
  - rewrite count_rows. exact Used.
  - rewrite count_rows, Homes, <- Used. exact (cont_count B _ _ _ _ H R).
  - intros r I. apply in_map_iff in I. destruct I as (i & <- & _). cbn [row fst snd]. apply (cont_shifted B _ _ _ _ H R).
  - now rewrite count_rows.
Qed.

Lemma map_flags : forall kb VB VW L bb ops, keys_fit kb bb -> 1 <= L <= 99 -> 1 <= VW <= 63 -> VB = 0 \/ VB = VW ->
  1 <= bb <= 60 -> 1 <= 2 ^ bb * L / 100 -> (N.of_nat (length ops) < 2 ^ 50)%N -> Forall (map_op_in kb VW) ops -> Forall (reserve_fits kb L) ops ->
  exists t rows c, cht_run VB L kb (2 ^ bb) VW ops = Ok t /\ cht_print t = (if (N.of_nat (ch_bucket t) <? 2 ^ 31)%N then Ok (rows, c) else UB) /\ flags_of kb ops (ch_bucket t) rows c.
Proof.
  intros kb VB VW L bb ops (K1 & K2) HL HVW HVB Hbb Hm Hn Ho Hr.
  destruct (run_ok kb VB VW L) with (bb := bb) (ops := ops) as (t & E & R & S & _); auto; try lia. { apply Forall_impl with (2 := Hr). intros. now apply fits_rooms. }
  destruct (rep_flags kb VW L t ops K1 Ho R S) as (rows & c & Ep & Fl). exists t, rows, c. auto.
Qed.
