(** Which lists of keys give an edge twice. *)
From Coq Require Import List NArith ZArith Arith Bool Lia ListDec.
From Verif Require Import Base Spec10 BitUtilModel BitVectorModel SamcModel SamcLevel SamcTree SamcSet SamcSet2 SamcSet3.
Import ListNotations.
Local Open Scope nat_scope.
Ltac Zify.zify_post_hook ::= idtac.

Definition broken (d : nat) (S : list (list N)) : Prop :=
  exists i j k, i < j /\ j < k /\ k < length S /\ chd d (nth i S []) = chd d (nth k S []) /\ chd d (nth j S []) <> chd d (nth i S []).
Lemma broken_app : forall d a b c, a <> [] -> (forall k, In k a -> chd d k = c) -> match b with [] => True | k :: _ => chd d k <> c end -> (broken d (a ++ b) <-> (exists k, In k b /\ chd d k = c) \/ broken d b).
Proof.
  intros d a b c Na Ha Hb. assert (La : 0 < length a) by (destruct a; [congruence|cbn [length]; lia]).
  assert (NA : forall i, i < length a -> chd d (nth i (a ++ b) []) = c) by (intros i Hi; rewrite app_nth1 by auto; apply Ha; now apply nth_In).
  assert (NB : forall i, length a <= i -> nth i (a ++ b) [] = nth (i - length a) b []) by (intros i Hi; now apply app_nth2).
  split.
  - intros (i & j & k & Hij & Hjk & Hk & E1 & E2). rewrite app_length in Hk. destruct (lt_dec i (length a)) as [Li|Li].
    + left. rewrite (NA i Li) in E1, E2. assert (~ j < length a) by (intros Lj; apply E2; now apply NA). rewrite (NB k) in E1 by lia. exists (nth (k - length a) b []). split; [apply nth_In; lia|auto].
    + right. exists (i - length a), (j - length a), (k - length a). rewrite <- !NB by lia. repeat split; auto; lia.
  - intros [(k & I & E)|(i & j & k & Hij & Hjk & Hk & E1 & E2)].
    + destruct (In_nth b k [] I) as (t & Ht & Et). destruct b as [|b0 b]; [destruct I|]. exists 0, (length a), (length a + t). rewrite app_length. rewrite (NA 0 La), (NB (length a)), (NB (length a + t)) by lia. replace (length a - length a) with 0 by lia. replace (length a + t - length a) with t by lia. rewrite Et, E. cbn [nth].
      assert (t <> 0) by (intros ->; cbn [nth] in Et; congruence). repeat split; auto; lia.
    + exists (length a + i), (length a + j), (length a + k). rewrite app_length, !NB by lia. replace (length a + i - length a) with i by lia. replace (length a + j - length a) with j by lia. replace (length a + k - length a) with k by lia. repeat split; auto; lia.
Qed.
Definition sel (d : nat) (c : N) (S : list (list N)) : list (list N) := filter (fun k => (chd d k =? c)%N) S.
Lemma groups_full : forall fuel ks d, length ks <= fuel -> (forall k, In k ks -> d <= length k) -> exists es, edge_groups fuel ks d = Ok es /\ (forall c, In c (map fst es) <-> exists k, In k ks /\ chd d k = c) /\
  (NoDup (map fst es) <-> ~ broken d ks) /\ (NoDup (map fst es) -> forall c g, In (c, g) es -> g = sel d c ks).
Proof.
  induction fuel as [|fuel IH]; intros [|k ks] d Hf H.
  - exists []. split; auto. split; [intros c; split; [intros []|intros (k & [] & _)]|]. split; [split; [intros _ (i & j & k & A & B & C & _); cbn [length] in C; lia|constructor]|intros _ c g []].
  - cbn [length] in Hf. lia.
  - exists []. split; auto. split; [intros c; split; [intros []|intros (k & [] & _)]|]. split; [split; [intros _ (i & j & k & A & B & C & _); cbn [length] in C; lia|constructor]|intros _ c g []].
  - cbn [edge_groups]. rewrite char_at_le by (apply H; now left). cbn [bind]. destruct (take_any (k :: ks) d (chd d k) H) as (a & b & E & Ek & A & B). rewrite E. cbn [bind fst snd].
    assert (Na : a <> []) by (intros ->; cbn [app] in Ek; subst b; congruence).
    destruct (IH b d) as (es & Ee & Ec & En & Eg).
    { assert (length (k :: ks) = length a + length b) by (rewrite Ek, app_length; reflexivity). cbn [length] in *. destruct a; [congruence|]. cbn [length] in *. lia. }
    { intros k' Hk. apply H. rewrite Ek. apply in_or_app. auto. }
    rewrite Ee. cbn [bind]. exists ((chd d k, a) :: es). split; auto. rewrite Ek. cbn [map fst]. split.
    { intros c. cbn [In]. rewrite Ec. split.
      - intros [<-|(k' & I & Q)]; [exists k; split; auto; rewrite <- Ek; now left|exists k'; split; auto; apply in_or_app; auto].
      - intros (k' & I & Q). apply in_app_or in I. destruct I as [I|I]; [left; rewrite <- Q; symmetry; auto|right; eauto]. }
    split.
    { rewrite (broken_app d a b (chd d k) Na A B). split.
      - intros ND. inversion ND as [|? ? N1 N2]; subst. intros [X|X]; [apply N1; now apply Ec|]. revert X. now apply En.
      - intros X. constructor; [intros I; apply X; left; now apply Ec|]. apply En. tauto. }
    intros ND c g I. inversion ND as [|? ? N1 N2]; subst. unfold sel. rewrite filter_app. destruct I as [I|I].
    + injection I as <- <-. rewrite filter_all by (intros x Hx; rewrite (A x Hx); apply N.eqb_refl). rewrite filter_nil; [now rewrite app_nil_r|]. intros x Hx. apply N.eqb_neq. intros Q. apply N1. apply Ec. eauto.
    + assert (c <> chd d k) by (intros ->; apply N1; apply in_map_iff; exists (chd d k, g); auto). rewrite (filter_nil _ _ a); [apply (Eg N2 c g I)|]. intros x Hx. rewrite (A x Hx). apply N.eqb_neq. congruence.
Qed.
Definition shadow (d : nat) (S : list (list N)) : Prop := match S with [] => False | k0 :: _ => length k0 = d /\ exists k, In k S /\ d < length k /\ chd d k = 0%N end.
Lemma chd_end : forall d k, length k = d -> chd d k = 0%N.
Proof. intros d k L. unfold chd. apply nth_overflow. lia. Qed.
Lemma skip_hd : forall ks d, match skip_ended ks d with [] => True | k :: _ => length k <> d end.
Proof. intros ks d. induction ks as [|x ks IH]; cbn [skip_ended]; auto. destruct (Nat.eqb_spec (length x) d); auto. Qed.
Theorem explore_full : forall ks d, ks <> [] -> (forall k, In k ks -> d <= length k) -> exists es, explore ks d = Ok es /\ (forall c, In c (map fst es) <-> exists k, In k ks /\ chd d k = c) /\
  (NoDup (map fst es) <-> ~ (broken d ks \/ shadow d ks)) /\ (NoDup (map fst es) -> forall c g, c <> 0%N -> In (c, g) es -> g = sel d c ks).
Proof.
  intros ks d Hn H. destruct ks as [|k0 ks]; [congruence|]. cbn [explore shadow]. destruct (Nat.eqb_spec (length k0) d) as [Q|Q].
  - destruct (skip_any ks d) as (a & Ea & A). pose proof (skip_hd ks d) as SH. remember (skip_ended ks d) as r eqn:Er. clear Er. destruct (groups_full (length ks) r d) as (es & Ee & Ec & En & Eg).
    { rewrite Ea, app_length. lia. }
    { intros k Hk. apply H. right. rewrite Ea. apply in_or_app. auto. }
    rewrite Ee. cbn [bind]. exists ((0%N, []) :: es). split; auto. cbn [map fst].
    assert (AL : forall k, In k (k0 :: a) -> length k = d) by (intros k [<-|I]; auto).
    assert (AZ : forall k, In k (k0 :: a) -> chd d k = 0%N) by (intros k I; apply chd_end; auto).
    assert (SP : k0 :: ks = (k0 :: a) ++ r) by (cbn [app]; now rewrite <- Ea).
    assert (HR : match r with [] => True | k :: _ => d < length k end).
    { destruct r as [|k r']; auto. assert (L : d <= length k) by (apply H; right; rewrite Ea; apply in_or_app; right; now left). lia. }
    rewrite SP.
    split.
    { intros c. cbn [In]. rewrite Ec. split.
      - intros [<-|(k & I & X)]; [exists k0; split; [now left|apply AZ; now left]|exists k; split; auto; apply in_or_app; auto].
      - intros (k & I & X). apply in_app_or in I. destruct I as [I|I]; [left; rewrite <- X; symmetry; auto|right; eauto]. }
    split.
    { assert (X : broken d ((k0 :: a) ++ r) \/ (length k0 = d /\ exists k, In k ((k0 :: a) ++ r) /\ d < length k /\ chd d k = 0%N) <-> (exists k, In k r /\ chd d k = 0%N) \/ broken d r).
      { split.
        - intros [(i & j & k & Hij & Hjk & Hk & E1 & E2)|(_ & k & I & L & Z)].
          + destruct (lt_dec i (length (k0 :: a))) as [Li|Li].
            * left. assert (Zi : chd d (nth i ((k0 :: a) ++ r) []) = 0%N) by (rewrite app_nth1 by auto; apply AZ; now apply nth_In). rewrite Zi in *. assert (~ j < length (k0 :: a)) by (intros Lj; apply E2; rewrite app_nth1 by auto; apply AZ; now apply nth_In).
              rewrite (app_nth2 _ _ _ (n := k)) in E1 by lia. rewrite app_length in Hk. eexists. split; [|symmetry; exact E1]. apply nth_In. lia.
            * right. rewrite app_length in Hk. exists (i - length (k0 :: a)), (j - length (k0 :: a)), (k - length (k0 :: a)). rewrite <- !app_nth2 by lia. repeat split; auto; lia.
          + left. apply in_app_or in I. destruct I as [I|I]; [apply AL in I; lia|]. exists k. auto.
        - intros [(k & I & Z)|(i & j & k & Hij & Hjk & Hk & E1 & E2)].
          + destruct (le_lt_dec (length k) d) as [Lk|Lk]; [|right; split; auto; exists k; split; [apply in_or_app; auto|auto]].
            destruct r as [|r0 r']; [destruct I|]. destruct (N.eq_dec (chd d r0) 0) as [Z0|Z0]; [right; split; auto; exists r0; split; [apply in_or_app; right; now left|auto]|]. left.
            destruct (In_nth _ _ [] I) as (t & Ht & Et). exists 0, (length (k0 :: a)), (length (k0 :: a) + t). rewrite app_length. rewrite (app_nth2 _ _ _ (n := length (k0 :: a))) by lia. rewrite (app_nth2 _ _ _ (n := length (k0 :: a) + t)) by lia. replace (length (k0 :: a) - length (k0 :: a)) with 0 by lia. replace (length (k0 :: a) + t - length (k0 :: a)) with t by lia. rewrite Et, Z. change (nth 0 ((k0 :: a) ++ r0 :: r') []) with k0. change (nth 0 (r0 :: r') []) with r0. rewrite (AZ k0) by now left.
            assert (t <> 0) by (intros ->; cbn [nth] in Et; congruence). repeat split; auto; cbn [length] in *; lia.
          + left. exists (length (k0 :: a) + i), (length (k0 :: a) + j), (length (k0 :: a) + k). rewrite app_length, !app_nth2 by lia. replace (length (k0 :: a) + i - length (k0 :: a)) with i by lia. replace (length (k0 :: a) + j - length (k0 :: a)) with j by lia. replace (length (k0 :: a) + k - length (k0 :: a)) with k by lia. repeat split; auto; lia. }
      cbn [app] in X. cbn [app]. rewrite X. split.
      - intros ND. inversion ND as [|? ? N1 N2]; subst. intros [Y|Y]; [apply N1; now apply Ec|]. revert Y. now apply En.
      - intros Y. constructor; [intros I; apply Y; left; now apply Ec|]. apply En. tauto. }
    intros ND c g Nc I. inversion ND as [|? ? N1 N2]; subst. unfold sel. rewrite filter_app. rewrite (filter_nil _ _ (k0 :: a)) by (intros x Hx; rewrite (AZ x Hx); apply N.eqb_neq; congruence). destruct I as [I|I]; [congruence|]. apply (Eg N2 c g I).
  - destruct (groups_full (length (k0 :: ks)) (k0 :: ks) d) as (es & Ee & Ec & En & Eg); auto. exists es. split; auto. split; auto. split; [rewrite En; tauto|]. intros ND c g _ I. apply (Eg ND c g I).
Qed.
