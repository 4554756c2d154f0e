(** What MultiBitVector::Read makes of streams of any length, whatever the padding. *)
From Coq Require Import List NArith ZArith Arith Bool Lia.
From Verif Require Import Base Spec Spec2 Spec13 Spec23 MultiBitSpec BitUtilModel MultiBitModel MultiBitProof StreamModel StreamProof ShortStreamModel ShortStream SerialReach PadModel.
Import ListNotations.
Local Open Scope nat_scope.

Lemma kB : forall U, kBlocksInTipSize U = 4 * U.
Proof. intros U. unfold kBlocksInTipSize. replace (256 * U) with (4 * U * 64) by lia. apply Nat.div_mul. lia. Qed.
Lemma first_part : forall n (a b : list N), length a = n -> firstn n (a ++ b) = a.
Proof. intros n a b <-. rewrite firstn_app, Nat.sub_diag, firstn_all. apply app_nil_r. Qed.
Lemma skip_part : forall n (a b : list N), length a = n -> skipn n (a ++ b) = b.
Proof. intros n a b <-. rewrite skipn_app, Nat.sub_diag, skipn_all. reflexivity. Qed.
Lemma ptip_len : forall U t, ptip_fits U t -> length (ptip_write t) = ptip_size U.
Proof. intros U [[a l] pad] ((_ & L & _) & P & _). cbn [fst snd tip_L1 tip_L2] in *. unfold ptip_write, ptip_size. cbn [fst snd tip_L1 tip_L2]. rewrite !app_length, P, L, kB. unfold write_val. rewrite le_length. lia. Qed.
Lemma ptip_dec_enc : forall U t, ptip_fits U t -> ptip_dec U (ptip_write t) = t /\ length (ptip_write t) = ptip_size U /\ Forall byte (ptip_write t).
Proof.
  intros U t F. split; [|split; [apply ptip_len; auto|]].
  - destruct t as [[a l] pad]. destruct F as ((A & L & _) & P & _). cbn [fst snd tip_L1 tip_L2] in *. unfold ptip_dec, ptip_write. cbn [fst snd tip_L1 tip_L2].
    assert (L8 : length (write_val 8 a) = 8) by apply le_length. assert (L' : length l = kBlocksInTipSize U) by (rewrite kB; exact L).
    rewrite (first_part _ _ _ L8), (skip_part _ _ _ L8), (first_part _ _ _ L'), (skip_part _ _ _ L'). unfold write_val. rewrite le_value_bytes by exact A. reflexivity.
  - destruct t as [[a l] pad]. destruct F as ((_ & _ & L) & _ & P). cbn [fst snd tip_L1 tip_L2] in *. unfold ptip_write. cbn [fst snd tip_L1 tip_L2]. rewrite !Forall_app. split; [apply le_byte|]. auto.
Qed.
Lemma ptip_enc_dec : forall U c, Forall byte c -> length c = ptip_size U -> ptip_fits U (ptip_dec U c) /\ ptip_write (ptip_dec U c) = c.
Proof.
  intros U c B L. unfold ptip_size in L. unfold ptip_dec, ptip_fits, tip_fits, ptip_write. cbn [fst snd tip_L1 tip_L2].
  assert (L1 : length (firstn 8 c) = 8) by (rewrite firstn_length; lia). assert (L2 : length (skipn 8 c) = kBlocksInTipSize U + tip_pad U) by (rewrite skipn_length; lia).
  destruct (le_bytes_value (firstn 8 c) (Forall_first _ _ _ B)) as [E1 E2]. rewrite L1 in E1, E2. split.
  - split; [split; [exact E2|split; [rewrite firstn_length, L2, kB; lia|apply Forall_first, Forall_skip, B]]|]. split; [rewrite skipn_length, L2; lia|apply Forall_skip, Forall_skip, B].
  - unfold write_val. rewrite E1, firstn_skipn, firstn_skipn. reflexivity.
Qed.
Lemma ptip_zero_fits : forall U, ptip_fits U (ptip_zero U).
Proof.
  intros U. assert (Z : forall n, Forall (fun b => (b < 256)%N) (repeat 0%N n)) by (intros n; apply Forall_forall; intros x X; apply repeat_spec in X; subst; reflexivity).
  unfold ptip_fits, tip_fits, ptip_zero. cbn [fst snd tip_L1 tip_L2]. rewrite !repeat_length. repeat split; auto. apply kB.
Qed.

Definition arr_fits (U : nat) (ts : list ptip) : Prop := size_fits (length ts) /\ Forall (ptip_fits U) ts.
Lemma exact_tips : forall U old, Forall (ptip_fits U) old -> exact (s_tips U old) (write_vec ptip_write) (arr_fits U) (fun l => concat (map ptip_write (lresize old (length l) (ptip_zero U)))).
Proof. intros U old H. apply exact_vec; auto; [apply ptip_dec_enc|apply ptip_enc_dec|apply ptip_zero_fits]. Qed.
Lemma strict_tips : forall U old, strict (s_tips U old).
Proof. intros. apply strict_vec. Qed.
Lemma exact_tiparrays : forall U target, target <> [] -> Forall (arr_fits U) target ->
  exact (s_tiparrays U target) (fun l => concat (map (write_vec ptip_write) l)) (fun l => length l = length target /\ Forall (arr_fits U) l) (tips_old U target).
Proof.
  intros U. induction target as [|t target IH]; intros NE FT; [congruence|]. inversion FT as [|? ? Ft FT']; subst.
  pose proof (exact_tips U t (proj2 Ft)) as HS. destruct target as [|t2 target].
  - cbn [s_tiparrays]. eapply exact_ext with (1 := exact_one (list ptip) [] _ _ _ _ _ HS _); try reflexivity.
    + intros l. split; [intros (a & -> & Fa); auto|]. intros [L X]. destruct l as [|a [|]]; try discriminate L. inversion X; subst. exists a. auto.
    Unshelve. reflexivity.
  - specialize (IH ltac:(discriminate) FT'). change (s_tiparrays U (t :: t2 :: target)) with (rd a <- s_tips U t; rd r <- s_tiparrays U (t2 :: target); sret (a :: r)).
    eapply exact_ext with (1 := exact_more (list ptip) [] _ _ _ _ _ _ _ HS IH _); try reflexivity.
    + intros l. split; [intros (a & r & -> & Fa & L & Gr); cbn [length] in *; auto|]. intros [L X]. destruct l as [|a r]; [discriminate|]. inversion X; subst. exists a, r. cbn [length] in *. auto.
    + intros l (a & r & -> & _ & L & _). cbn [tl]. destruct r as [|b r]; [discriminate|]. unfold tips_old. cbn [rev]. destruct (rev target ++ [t2]) eqn:E1; [destruct (rev target); discriminate|]. destruct (rev r ++ [b]) eqn:E2; [destruct (rev r); discriminate|]. reflexivity.
    Unshelve. cbn [s_tiparrays]. apply strict_bind, strict_tips.
Qed.
Lemma exact_mb : forall U target, pm_fits U target -> exact (s_mb U target) pm_write (pm_fits U) (fun p => tips_old U (pm_tips target) (pm_tips p)).
Proof.
  intros U target (T1 & T2 & T3 & T4). assert (NE : pm_tips target <> []). { intros E. rewrite E in T3. cbn [length] in T3. assert (2 ^ U <> 0) by (apply Nat.pow_nonzero; lia). lia. }
  set (T := fun p => tips_old U (pm_tips target) (pm_tips p)). set (FT := fun p => length (pm_tips p) = 2 ^ U /\ Forall (arr_fits U) (pm_tips p)). set (WT := fun p => concat (map (write_vec ptip_write) (pm_tips p))).
  apply exact_ext with (w := fun p => write_vec (write_val 8) (pm_bits p) ++ WT p) (F := fun p => (size_fits (length (pm_bits p)) /\ Forall word_fits (pm_bits p)) /\ FT p) (tl := T); try reflexivity.
  2: { intros p. unfold pm_fits, FT, arr_fits. tauto. }
  unfold s_mb. apply (exact_bind (list N) pmulti (s_ints 8 (pm_bits target)) _ (write_vec (write_val 8)) (fun l => size_fits (length l) /\ Forall word_fits l) (fun l => concat (map (write_val 8) (lresize (pm_bits target) (length l) 0%N))) pm_bits WT FT T (exact_ints 8 _ T2)).
  2: { right. intros b. destruct (pm_tips target) as [|t l]; [congruence|]. cbn [s_tiparrays]. apply strict_bind, strict_bind, strict_tips. }
  intros b _. eapply exact_ext with (1 := exact_map _ _ _ _ _ _ (fun ts => PMB b ts) pm_tips (exact_tiparrays U (pm_tips target) NE T4) (fun l => eq_refl)); try reflexivity.
  intros [b' ts]. unfold FT. cbn [pm_bits pm_tips]. rewrite T3. split; [intros [X Y]|intros [X Y]; subst; auto]. assert (b' = b) as -> by congruence. auto.
Qed.

(** ** The members do not depend on the padding *)
Lemma rt_ptip : forall U t, ptip_fits U t -> rt (tip_read U) (ptip_write t) (fst t).
Proof.
  intros U [[l1 l2] pad] ((A & B & C) & P & _). cbn [fst snd tip_L1 tip_L2] in *. unfold tip_read, ptip_write. cbn [fst snd tip_L1 tip_L2].
  intros rest. unfold pbind. rewrite <- !app_assoc. assert (R1 := rt_val 8 l1 A (l2 ++ pad ++ rest)). rewrite R1. cbn [bind fst snd].
  assert (L' : length l2 = kBlocksInTipSize U) by (rewrite kB; exact B). pose proof (rt_bytes l2 (pad ++ rest)) as R2. rewrite L' in R2. rewrite R2. cbn [bind fst snd].
  pose proof (rt_bytes pad rest) as R3. rewrite P in R3. rewrite R3. reflexivity.
Qed.
Lemma rt_pm : forall U p, pm_fits U p -> rt (mb_read U) (pm_write p) (pm_members p).
Proof.
  intros U [b ts] (A & B & C & D). cbn [pm_bits pm_tips] in *. unfold mb_read, pm_write, pm_members. cbn [pm_bits pm_tips].
  apply rt_bind with b; [now apply rt_words|]. apply rt_last with (f := fun ts => MB b ts). replace (kMaxNumTypes U) with (length ts) by auto. clear C.
  induction D as [|l ts (X & Y) D IH]; [apply rt_ret|]. cbn [length prep map concat]. apply rt_bind with (map fst l); [|apply rt_last with (f := fun r => map fst l :: r); exact IH].
  unfold read_vec, write_vec. apply rt_bind with (length l); [now apply rt_size|]. clear X. induction Y as [|t l F Y IY]; [apply rt_ret|]. cbn [length prep map concat]. apply rt_bind with (fst t); [now apply rt_ptip|]. apply rt_last with (f := fun r => fst t :: r). exact IY.
Qed.
Lemma pm_len : forall U p, pm_fits U p -> length (pm_write p) = mb_size_in_bytes U (pm_members p).
Proof.
  intros U [b ts] (A & B & C & D). cbn [pm_bits pm_tips] in *. unfold pm_write, mb_size_in_bytes, pm_members. cbn [pm_bits pm_tips mb_bits mb_tips]. rewrite app_length, (len_vec _ _ 8) by (intros; apply le_length). f_equal. clear A B C.
  induction D as [|l ts (X & Y) D IH]; [reflexivity|]. unfold list_sum_nat in *. cbn [map concat fold_right]. rewrite app_length, IH. f_equal.
  rewrite (len_vec _ _ (ptip_size U)) by (intros t Ht; apply ptip_len; rewrite Forall_forall in Y; auto). unfold size_vec. rewrite map_length. reflexivity.
Qed.

(** ** Images cut short *)
Lemma vec_bytes : forall A (enc : A -> list N) l, Forall (fun a => Forall byte (enc a)) l -> Forall byte (write_vec enc l).
Proof. intros A enc l H. unfold write_vec, write_size. apply Forall_app. split; [apply le_byte|]. induction H; cbn [map concat]; [constructor|]. apply Forall_app. auto. Qed.
Lemma pm_bytes : forall U p, pm_fits U p -> Forall byte (pm_write p).
Proof.
  intros U p (A & B & C & D). unfold pm_write. apply Forall_app. split; [apply vec_bytes, Forall_forall; intros; apply le_byte|]. clear C. induction D as [|l ts [_ X] D IH]; cbn [map concat]; [constructor|]. apply Forall_app. split; auto.
  apply vec_bytes. eapply Forall_impl; [|exact X]. intros t Ft. apply (ptip_dec_enc U t Ft).
Qed.
Definition last_array (p : pmulti) : list ptip := last (pm_tips p) [].
Lemma tips_split : forall U p, pm_fits U p -> pm_tips p = removelast (pm_tips p) ++ [last_array p].
Proof. intros U p (_ & _ & C & _). apply app_removelast_last. intros E. rewrite E in C. cbn [length] in C. assert (2 ^ U <> 0) by (apply Nat.pow_nonzero; lia). lia. Qed.
Lemma old_split : forall U target p, pm_fits U target -> pm_fits U p -> tips_old U (pm_tips target) (pm_tips p) = concat (map ptip_write (lresize (last_array target) (length (last_array p)) (ptip_zero U))).
Proof. intros U target p FT FP. unfold tips_old. rewrite (tips_split U target FT), (tips_split U p FP), !rev_app_distr. reflexivity. Qed.
Lemma lresize_fits : forall A (P : A -> Prop) l n d, Forall P l -> P d -> Forall P (lresize l n d).
Proof. intros A P l n d HL HD. unfold lresize. apply Forall_app. split; [rewrite <- (firstn_skipn n l) in HL; apply Forall_app in HL; tauto|]. apply Forall_forall. intros x X. apply repeat_spec in X. subst. auto. Qed.
Lemma last_fits : forall U p, pm_fits U p -> arr_fits U (last_array p) /\ Forall (arr_fits U) (removelast (pm_tips p)).
Proof. intros U p F. pose proof (tips_split U p F) as E. destruct F as (_ & _ & _ & D). rewrite E in D. apply Forall_app in D. destruct D as [D1 D2]. inversion D2; subst. auto. Qed.
Lemma cut_image : forall U target p bs more, pm_fits U target -> pm_fits U p -> last_array p = [] -> pm_write p = bs ++ more -> more <> [] -> s_mb U target (bs, true) = UB.
Proof.
  intros U target p bs more FT FP LP EW NM. pose proof (pm_bytes U p FP) as BP. destruct (exact_mb U target FT) as [_ H].
  assert (BB : Forall byte bs) by (rewrite EW in BP; apply Forall_app in BP; tauto). destruct (H bs BB) as [E C]. destruct C as [->|([q st] & Q)]; [reflexivity|exfalso].
  apply E in Q. destruct Q as [FQ R]. assert (PR : forall r, Forall byte r -> s_mb U target (pm_write p ++ r, true) = Ok (p, (r, true))).
  { intros r BR. destruct (H (pm_write p ++ r)) as [E2 _]; [apply Forall_app; auto|]. apply E2. split; auto. left. exists r. auto. }
  destruct R as [(rest & R & _)|(k & K & R & _)].
  - destruct (H (pm_write p)) as [E2 _]; auto. assert (X : s_mb U target (pm_write p, true) = Ok (q, (rest ++ more, true))). { apply E2. split; auto. left. exists (rest ++ more). split; auto. rewrite EW, R. rewrite app_assoc. reflexivity. }
    specialize (PR [] (Forall_nil _)). rewrite app_nil_r, X in PR. injection PR as _ PR. destruct rest; [cbn [app] in PR; congruence|discriminate].
  - rewrite (old_split U target q FT FQ) in *. set (n := length (last_array q)) in *. set (old := concat (map ptip_write (lresize (last_array target) n (ptip_zero U)))) in *.
    destruct (last_fits U q FQ) as [[LF1 LF2] LF3].
    assert (LO : length old = ptip_size U * n).
    { unfold old. rewrite (concat_len ptip (ptip_size U)); [rewrite lresize_length; reflexivity|]. eapply Forall_impl; [|apply (lresize_fits ptip (ptip_fits U)); [apply (last_fits U target FT)|apply ptip_zero_fits]]. apply ptip_len. }
    set (A := write_vec (write_val 8) (pm_bits q) ++ concat (map (write_vec ptip_write) (removelast (pm_tips q))) ++ write_size n).
    set (body := concat (map ptip_write (last_array q))). assert (LB : length body = ptip_size U * n). { unfold body. rewrite (concat_len ptip (ptip_size U)); auto. eapply Forall_impl; [|exact LF2]. apply ptip_len. }
    assert (WQ : pm_write q = A ++ body). { unfold pm_write. rewrite (tips_split U q FQ). rewrite map_app, concat_app. cbn [map concat]. rewrite app_nil_r. unfold A, body, write_vec at 3. fold n. rewrite <- !app_assoc. reflexivity. }
    set (Z := pm_write p ++ repeat 0%N (length old)). assert (BZ0 : Forall byte (repeat 0%N (length old))) by (apply Forall_forall; intros x X; apply repeat_spec in X; subst; reflexivity). assert (BZ : Forall byte Z) by (apply Forall_app; auto).
    assert (LA : length A <= length bs). { apply (f_equal (@length N)) in R. rewrite app_length, skipn_length, WQ, app_length, LB in R. lia. }
    assert (EA : firstn (length A) bs = A). { apply (f_equal (firstn (length A))) in R. rewrite WQ, !firstn_app in R. replace (length A - length bs) with 0 in R by lia. rewrite Nat.sub_diag in R. cbn [firstn] in R. rewrite !app_nil_r, (firstn_all A) in R. exact R. }
    assert (EZ : Z = A ++ skipn (length A) Z). { rewrite <- EA at 1. unfold Z. rewrite EW. rewrite <- !app_assoc. rewrite skipn_app. replace (length A - length bs) with 0 by lia. cbn [skipn]. rewrite (app_assoc (firstn (length A) bs)), firstn_skipn. reflexivity. }
    set (t := skipn (length A) Z) in *. assert (LT : length old <= length t). { unfold t. rewrite skipn_length. unfold Z. rewrite app_length, repeat_length, EW, app_length. lia. }
    set (b2 := firstn (length old) t). set (r := skipn (length old) t). assert (ET : t = b2 ++ r) by (symmetry; apply firstn_skipn). assert (LB2 : length b2 = ptip_size U * n) by (unfold b2; rewrite firstn_length; lia).
    assert (BT : Forall byte t) by (apply Forall_skip; auto). assert (B2 : Forall byte b2) by (apply Forall_first; auto).
    destruct (dec_all ptip (ptip_size U) ptip_write (ptip_dec U) (ptip_fits U) (ptip_enc_dec U) n b2 B2 LB2) as (D1 & D2 & D3). set (la := map (ptip_dec U) (chunks (ptip_size U) n b2)) in *.
    set (q' := PMB (pm_bits q) (removelast (pm_tips q) ++ [la])).
    assert (FQ' : pm_fits U q'). { pose proof (tips_split U q FQ) as TS. destruct FQ as (Q1 & Q2 & Q3 & _). unfold pm_fits, q'. cbn [pm_bits pm_tips]. split; auto. split; auto. split; [rewrite TS, app_length in Q3; rewrite app_length; exact Q3|]. apply Forall_app. split; auto. constructor; auto. rewrite D3. auto. }
    assert (WQ' : pm_write q' = A ++ b2). { unfold pm_write, q'. cbn [pm_bits pm_tips]. rewrite map_app, concat_app. cbn [map concat]. rewrite app_nil_r. unfold A, write_vec at 3. rewrite D1, D3, <- !app_assoc. reflexivity. }
    specialize (PR _ BZ0). fold Z in PR. destruct (H Z BZ) as [E2 _]. assert (X : s_mb U target (Z, true) = Ok (q', (r, true))). { apply E2. split; auto. left. exists r. split; auto. rewrite WQ', EZ, ET, app_assoc. reflexivity. }
    rewrite X in PR. injection PR as PR _. assert (LQ : last_array q' = []) by (rewrite PR; exact LP). unfold last_array, q' in LQ. cbn [pm_tips] in LQ. rewrite last_last in LQ. rewrite LQ in D3. cbn [length] in D3. rewrite <- D3, Nat.mul_0_r in LO. lia.
Qed.

(** ** Vectors made by the operations *)
Lemma fold_last : forall (f : nat -> res (list tip * N)) k a0 k0 a, (forall t, In t (seq k0 k) -> 0 < t /\ t - 1 < length a0 - 1) ->
  foldM (fun all type => do r <- f type; lset all (type - 1) (fst r)) (seq k0 k) a0 = Ok a -> length a = length a0 /\ nth (length a0 - 1) a [] = nth (length a0 - 1) a0 [].
Proof.
  intros f. induction k as [|k IH]; intros a0 k0 a HT E; cbn [seq foldM] in E; [injection E as <-; auto|].
  apply bind_Ok_inv in E. destruct E as (a1 & E1 & E). apply bind_Ok_inv in E1. destruct E1 as (r & _ & E1). apply lset_inv in E1. destruct E1 as [L ->].
  apply IH in E; [|intros t Ht; rewrite upd_length; apply HT; right; exact Ht]. rewrite upd_length in E. destruct E as [E1 E2]. split; auto. rewrite E2, nth_upd. destruct (HT k0) as [X Y]; [left; reflexivity|].
  destruct (Nat.eqb_spec (length a0 - 1) (k0 - 1)) as [Z|Z]; [lia|]. reflexivity.
Qed.
Lemma run_last : forall U ops v, okU U -> mb_run_b U ops = Ok v -> length (mb_tips v) = 2 ^ U /\ nth (2 ^ U - 1) (mb_tips v) [] = [].
Proof.
  intros U ops v HU. revert v. induction ops as [|o ops IH] using rev_ind; intros v E.
  - unfold mb_run_b in E. cbn [foldM] in E. injection E as <-. unfold mb_default. cbn [mb_tips]. split; [apply repeat_length|]. destruct HU as [->|[->| ->]]; reflexivity.
  - unfold mb_run_b in E. rewrite foldM_app in E. apply bind_Ok_inv in E. destruct E as (u & E1 & E). apply IH in E1. destruct E1 as [L N0]. cbn [foldM] in E. apply bind_Ok_inv in E. destruct E as (v1 & E & E2). injection E2 as ->.
    destruct o as [[j x|j]|]; cbn [mb_step_b mb_step] in E.
    + rewrite (mb_set_tips _ _ _ _ _ E). auto.
    + injection E as <-. auto.
    + unfold mb_build in E. destruct (_ =? 0) in E; [injection E as <-; auto|]. destruct (num_types_ok U u HU) as (m & Em & Mm & _). rewrite Em in E. cbn [bind] in E. apply bind_Ok_inv in E. destruct E as (all & Ea & E). injection E as <-. cbn [mb_tips].
      apply fold_last in Ea; [|intros t Ht; apply in_seq in Ht; lia]. rewrite L in Ea. rewrite N0 in Ea. exact Ea.
Qed.
Lemma members_fit : forall U p, mb_fits U (pm_members p) -> Forall (Forall (fun t => length (snd t) = tip_pad U /\ Forall byte (snd t))) (pm_tips p) -> pm_fits U p.
Proof.
  intros U p (A & B & C & D) P. unfold pm_members in *. cbn [mb_bits mb_tips] in *. rewrite map_length in C. split; auto. split; auto. split; auto. clear - D P. induction P as [|l ts Q P IH]; [constructor|]. cbn [map] in D. inversion D as [|? ? [D1 D2] D3]; subst. constructor; auto. rewrite map_length in D1. split; auto.
  clear - D2 Q. induction Q as [|t l [Q1 Q2] Q IH]; [constructor|]. cbn [map] in D2. inversion D2; subst. constructor; auto. split; auto.
Qed.
Lemma map_last_nil : forall (l : list (list ptip)), nth (length l - 1) (map (map fst) l) [] = [] -> last l [] = [].
Proof. intros l H. destruct l as [|y l]; [reflexivity|]. destruct (@exists_last _ (y :: l) ltac:(discriminate)) as (r & x & E). rewrite E in *. rewrite last_last. rewrite app_length, map_app in H. cbn [length map] in H. rewrite app_nth2 in H; rewrite map_length in *; [|lia]. replace (length r + 1 - 1 - length r) with 0 in H by lia. cbn [nth] in H. destruct x; [reflexivity|discriminate]. Qed.

Theorem mb_padded : forall U ops, okU U -> Forall (mb_op_fits U) (writes ops) -> Forall (fun o => (N.of_nat (mb_index o) < 2 ^ 57)%N) (writes ops) ->
  exists v, mb_run_b U ops = Ok v /\ forall p, pm_members p = v -> Forall (Forall (fun t => length (snd t) = tip_pad U /\ Forall byte (snd t))) (pm_tips p) ->
    length (pm_write p) = mb_size_in_bytes U v /\ (forall rest, mb_read U (pm_write p ++ rest) = Ok (v, rest)) /\
    forall target, pm_fits U target -> (forall rest, Forall byte rest -> s_mb U target (pm_write p ++ rest, true) = Ok (p, (rest, true))) /\
      forall bs more, pm_write p = bs ++ more -> more <> [] -> s_mb U target (bs, true) = UB.
Proof.
  intros U ops HU F G. destruct (mb_run_inv U ops HU F G) as (v & E & (A & B & C & D)). exists v. split; auto. intros p EP PP.
  assert (X : mb_fits U v). { split; [unfold size_fits; assert (2 ^ 57 < 2 ^ 64)%N by reflexivity; lia|]. split; [now apply small_fits|]. split; auto. }
  assert (FP : pm_fits U p) by (apply members_fit; auto; rewrite EP; auto). split; [rewrite <- EP; now apply pm_len|]. split; [rewrite <- EP; now apply rt_pm|].
  intros target FT. split.
  - intros rest BR. destruct (exact_mb U target FT) as [_ H]. apply H; [apply Forall_app; split; auto; now apply (pm_bytes U)|]. split; auto. left. exists rest. auto.
  - intros bs more EW NM. apply (cut_image U target p bs more); auto. destruct (run_last U ops v HU E) as [L N0]. unfold pm_members in EP. rewrite <- EP in N0, L. cbn [mb_tips] in N0, L. rewrite map_length in L. rewrite <- L in N0. exact (map_last_nil _ N0).
Qed.
