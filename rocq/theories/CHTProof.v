(** Proofs about CHTModel: reading and inserting *)
From Coq Require Import List NArith ZArith Arith Bool Lia.
From Verif Require Import Base BitUtilModel FitVectorModel FitVectorProof HashModel HashProof CHTModel CHTRing CHTShift CHTWord.
Import ListNotations.
Local Open Scope nat_scope.

Definition fO (l : list N) (z : Z) : bool := ob (wd l z).
Definition fC (l : list N) (z : Z) : bool := cb (wd l z).
Definition fS (l : list N) (z : Z) : bool := sb (wd l z).
Definition fU (l : list N) (z : Z) : bool := fO l z || fC l z || fS l z.
Definition fQ (l : list N) (z : Z) : N := qw (wd l z).
(** the hash value of the entry in slot z *)
Definition hk (l : list N) (H : Z -> Z) (z : Z) : N := (fQ l z * N.of_nat (length l) + Z.to_N (H z mod Z.of_nat (length l)))%N.

(** the arrays *)
Record arrs (VW : nat) (t : cht) (l vs : list N) : Prop := {
  a_B : 1 <= ch_bucket t;
  a_q : ch_quo_bits t <= 59;
  a_ll : length l = ch_bucket t;
  a_lv : length vs = ch_bucket t;
  a_arr : fv_rep (ch_arr t) l true;
  a_aw : fv_width (ch_arr t) = ch_quo_bits t + 4;
  a_val : fv_rep (ch_values t) vs true;
  a_vw : fv_width (ch_values t) = VW }.

Section Arrs.
Variables (VW : nat) (t : cht) (l vs : list N).
Hypothesis A : arrs VW t l vs.
Let B := ch_bucket t.
Lemma get_arr : forall z, fv_get (ch_arr t) (idx B z) = Ok (wd l z).
Proof.
  intros z. unfold B. rewrite (fv_get_rep _ l true) by (apply A || rewrite (a_ll _ _ _ _ A); apply idx_lt; apply A). unfold wd. now rewrite (a_ll _ _ _ _ A).
Qed.
Lemma get_val : forall z, fv_get (ch_values t) (idx B z) = Ok (wd vs z).
Proof.
  intros z. unfold B. rewrite (fv_get_rep _ vs true) by (apply A || rewrite (a_lv _ _ _ _ A); apply idx_lt; apply A). unfold wd. now rewrite (a_lv _ _ _ _ A).
Qed.
Lemma word_bound : forall z, (wd l z < 2 ^ N.of_nat (ch_quo_bits t + 4))%N.
Proof.
  intros z. destruct (a_arr _ _ _ _ A) as (_ & _ & _ & _ & F & _). rewrite <- (a_aw _ _ _ _ A). apply (proj1 (Forall_forall _ _) F). unfold wd. apply nth_In.
  rewrite (a_ll _ _ _ _ A). apply idx_lt. apply A.
Qed.
Lemma quo_at : forall z, quotient t (wd l z) = Ok (fQ l z).
Proof. intros. apply quotient_ok; [apply A|apply word_bound]. Qed.
Lemma succ_at : forall z, cht_succ t (idx B z) = idx B (z + 1).
Proof. intros. apply idx_succ; auto. apply A. Qed.
Lemma pred_at : forall z, cht_pred t (idx B z) = idx B (z - 1).
Proof. intros. apply idx_pred; auto. apply A. Qed.
Lemma put_arr : forall z w, (w < 2 ^ N.of_nat (ch_quo_bits t + 4))%N ->
  exists t', put_word t (idx B z) w = Ok t' /\ t' = with_arr t (ch_arr t') /\ arrs VW t' (upd l (idx B z) w) vs.
Proof.
  intros z w Hw. unfold put_word. destruct (fv_set_rep (ch_arr t) l true (idx B z) w) as (a & E & Ea & R).
  - apply A.
  - rewrite (a_ll _ _ _ _ A). apply idx_lt. apply A.
  - now rewrite (a_aw _ _ _ _ A).
  - rewrite E. cbn [bind]. eexists. split; [reflexivity|]. split; [reflexivity|]. destruct A. constructor; simpl; auto; try (rewrite upd_length; auto). congruence.
Qed.
Lemma put_val : forall z v, (v < 2 ^ N.of_nat VW)%N ->
  exists t', put_value t (idx B z) v = Ok t' /\ t' = with_values t (ch_values t') /\ arrs VW t' l (upd vs (idx B z) v).
Proof.
  intros z w Hw. unfold put_value. destruct (fv_set_rep (ch_values t) vs true (idx B z) w) as (a & E & Ea & R).
  - apply A.
  - rewrite (a_lv _ _ _ _ A). apply idx_lt. apply A.
  - now rewrite (a_vw _ _ _ _ A).
  - rewrite E. cbn [bind]. eexists. split; [reflexivity|]. split; [reflexivity|]. destruct A. constructor; simpl; auto; try (rewrite upd_length; auto). congruence.
Qed.
Lemma val_bound : forall z, (wd vs z < 2 ^ N.of_nat VW)%N.
Proof.
  intros z. destruct (a_val _ _ _ _ A) as (_ & _ & _ & _ & F & _). rewrite <- (a_vw _ _ _ _ A). apply (proj1 (Forall_forall _ _) F). unfold wd. apply nth_In.
  rewrite (a_lv _ _ _ _ A). apply idx_lt. apply A.
Qed.
Lemma upd_arr : forall z y w, wd (upd l (idx B y) w) z = if idx B z =? idx B y then w else wd l z.
Proof. intros. pose proof (idx_lt B (a_B _ _ _ _ A) y). rewrite wd_upd; rewrite (a_ll _ _ _ _ A); auto. apply A. Qed.
Lemma upd_val : forall z y w, wd (upd vs (idx B y) w) z = if idx B z =? idx B y then w else wd vs z.
Proof. intros. pose proof (idx_lt B (a_B _ _ _ _ A) y). rewrite wd_upd; rewrite (a_lv _ _ _ _ A); auto. apply A. Qed.

(** ** reading *)
Variable H : Z -> Z.
Hypothesis R : ring (Z.of_nat B) (fU l) (fO l) (fC l) (fS l) H.

Lemma head_back_ok : forall b c, (forall y, (c < y)%Z -> (y <= b)%Z -> fS l y = true) -> fS l c = false ->
  forall n y k fuel, n = Z.to_nat (y - c) -> (c < y <= b)%Z -> n <= fuel ->
  head_back fuel t (idx B y) k = Ok (idx B c, k + cnt (fO l) c y).
Proof.
  intros b c Sh Sc. induction n; intros y k fuel En Hy Hf; [lia|]. destruct fuel; [lia|]. cbn [head_back]. rewrite pred_at, get_arr. cbn [bind].
  rewrite is_shifted_eq, is_occupied_eq. fold (fS l (y - 1)). fold (fO l (y - 1)).
  destruct (Z.eq_dec (y - 1) c) as [E|].
  - rewrite E, Sc. do 2 f_equal. replace y with (c + 1)%Z by lia. rewrite cnt_snoc, cnt_nil by lia. destruct (fO l c); lia.
  - rewrite Sh by lia. rewrite IHn by lia. do 2 f_equal. pose proof (cnt_snoc (fO l) c (y - 1) ltac:(lia)) as E. replace (y - 1 + 1)%Z with y in E by lia. rewrite E. destruct (fO l (y - 1)); lia.
Qed.
Lemma head_forward_ok : forall b c i, fS l c = false -> (forall y, (c < y)%Z -> (y <= b)%Z -> fS l y = true) -> fU l c = true -> (c < b)%Z -> is_ins (fU l) H b i ->
  forall n z fuel, n = Z.to_nat (i - z) -> (c <= z < i)%Z -> n <= fuel ->
  head_forward fuel t (idx B z) (S (cnt (fO l) (H z + 1) b)) = Ok (idx B i).
Proof.
  intros b c i Sc Sh Uc Hcb I. induction n; intros z fuel En Hz Hf; [lia|]. destruct fuel; [lia|]. cbn [head_forward]. rewrite succ_at, get_arr. cbn [bind].
  rewrite is_continuation_eq. fold (fC l (z + 1)). destruct (Z.eq_dec (z + 1) i) as [E|].
  - rewrite E, (ins_not_cont _ _ _ _ _ _ R b i I). replace z with (i - 1)%Z by lia. rewrite (forward_last _ _ _ _ _ _ R b c i) by auto. destruct fuel; reflexivity.
  - destruct (forward_step _ _ _ _ _ _ R b c i z Sc Sh Uc Hcb I) as (F1 & F2); [lia|lia|]. destruct (fC l (z + 1)) eqn:E.
    + rewrite F1 by auto. apply IHn; lia.
    + rewrite F2 by auto. apply IHn; lia.
Qed.
Lemma cluster_head_ok : forall b i, is_ins (fU l) H b i -> (i < b + Z.of_nat B)%Z -> to_cluster_head t (idx B b) = Ok (idx B i).
Proof.
  intros b i I Hi. unfold to_cluster_head. rewrite get_arr. cbn [bind]. rewrite is_shifted_eq. fold (fS l b). destruct (fS l b) eqn:Sb.
  - destruct (back_exists _ _ _ _ _ _ R b Sb) as (c & Hc & Sc & Sh & Uc & Ec). fold B. rewrite (head_back_ok b c Sh Sc (Z.to_nat (b - c)) b 0) by lia. cbn [bind fst snd plus].
    rewrite cnt_cons by lia. replace (fO l c) with true by (rewrite <- Ec; symmetry; now apply (home_occ _ _ _ _ _ _ R)). change (1 + cnt (fO l) (c + 1) b) with (S (cnt (fO l) (c + 1) b)).
    rewrite <- Ec at 2. apply head_forward_ok with c (Z.to_nat (i - c)); auto; try (destruct I; lia).
  - f_equal. f_equal. pose proof (ins_unshifted _ _ _ _ _ _ R b Sb) as I'. destruct I as (I1 & I2 & I3). destruct I' as (_ & _ & J3).
    destruct (Z.eq_dec b i); auto. destruct (I2 b ltac:(lia) ltac:(lia)) as (Ub & Lb). specialize (J3 Ub). lia.
Qed.
Lemma find_run : forall b i e q, is_run_end (fU l) H b i e -> (e - i <= Z.of_nat B)%Z ->
  forall n z fuel, n = Z.to_nat (e - z) -> (i <= z < e)%Z -> n <= fuel ->
  (exists y, (z <= y < e)%Z /\ fQ l y = q /\ find_quotient fuel t q (idx B z) = Ok (inl (idx B y))) \/
  ((forall y, (z <= y < e)%Z -> fQ l y <> q) /\ find_quotient fuel t q (idx B z) = Ok (inr (idx B e))).
Proof.
  intros b i e q Re Hei. induction n; intros z fuel En Hz Hf; [lia|]. destruct fuel; [lia|]. cbn [find_quotient]. rewrite get_arr. cbn [bind]. rewrite quo_at. cbn [bind].
  destruct (N.eqb_spec (fQ l z) q) as [E|E].
  - left. exists z. split; [lia|]. auto.
  - rewrite succ_at, get_arr. cbn [bind]. rewrite is_continuation_eq. fold (fC l (z + 1)). destruct (Z.eq_dec (z + 1) e) as [Ee|].
    + right. rewrite Ee, (run_end_not_cont _ _ _ _ _ _ R b i e Re). split; auto. intros y Hy. replace y with z by lia. auto.
    + rewrite (run_cont _ _ _ _ _ _ R b i e z Re) by lia. destruct (IHn (z + 1)%Z fuel ltac:(lia) ltac:(lia) ltac:(lia)) as [(y & Y1 & Y2 & Y3)|(Y1 & Y2)].
      * left. exists y. split; [lia|]. auto.
      * right. split; auto. intros y Hy. destruct (Z.eq_dec y z) as [->|]; auto. apply Y1. lia.
Qed.

(** the search of set: where the key is, or where it goes *)
Lemma search_ok : forall b q,
  (exists z, fU l z = true /\ H z = b /\ fQ l z = q /\ fO l b = true /\ exists i, to_cluster_head t (idx B b) = Ok i /\ find_quotient (S B) t q i = Ok (inl (idx B z))) \/
  ((forall z, fU l z = true -> H z = b -> fQ l z <> q) /\
   exists p, is_spot (fU l) (fO l) (fC l) H b p /\ (p <= b + Z.of_nat B)%Z /\ exists i, to_cluster_head t (idx B b) = Ok i /\
     (if fO l b then find_quotient (S B) t q i else Ok (inr i)) = Ok (inr (idx B p))).
Proof.
  intros b q. destruct (ins_exists _ _ _ _ _ _ R b) as (i & I & Hi). pose proof (cluster_head_ok b i I Hi) as Ch. destruct (fO l b) eqn:Ob.
  - destruct (run_end_exists _ _ _ _ _ _ R b i I Ob) as (e & Re & He). assert (Hei : (e - i <= Z.of_nat B)%Z) by (destruct I; lia).
    destruct (find_run b i e q Re Hei (Z.to_nat (e - i)) i (S B)) as [(y & Y1 & Y2 & Y3)|(Y1 & Y2)]; try lia; [destruct Re; lia| |].
    + left. destruct Re as (R1 & R2 & R3). destruct (R2 y ltac:(lia) ltac:(lia)) as (Uy & Hy). exists y. split; auto. split; auto. split; auto. split; auto. exists (idx B i). auto.
    + right. split.
      * intros z Uz Hz. destruct (run_all _ _ _ _ _ _ R b i e z I Ob Re Uz Hz). apply Y1. lia.
      * exists e. split; [now apply (spot_old _ _ _ _ _ _ R b i e)|]. split; [lia|]. exists (idx B i). auto.
  - right. split.
    + intros z Uz Hz. pose proof (home_occ _ _ _ _ _ _ R z Uz). congruence.
    + exists i. split; [now apply (spot_new _ _ _ _ _ _ R)|]. split; [lia|]. exists (idx B i). auto.
Qed.
End Arrs.
