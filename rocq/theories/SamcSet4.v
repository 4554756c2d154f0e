(** Samc and SamcDict on arbitrary lists of keys. *)
From Coq Require Import List NArith ZArith Arith Bool Lia Sorted Permutation.
From Verif Require Import Base Spec Spec5 Spec10 BitUtilModel BitVectorModel SuccinctModel SuccinctProof SuccinctProof2 LcpProof SamcModel SamcDictProof SamcSet SamcSet2 SamcSet3.
Import ListNotations.
Local Open Scope nat_scope.
Ltac Zify.zify_post_hook ::= idtac.

Fixpoint lexc (a b : list N) : comparison :=
  match a, b with
  | [], [] => Eq | [], _ :: _ => Lt | _ :: _, [] => Gt
  | x :: a, y :: b => match (x ?= y)%N with Eq => lexc a b | r => r end
  end.
Lemma lexc_spec : forall a b, match lexc a b with Eq => a = b | Lt => lex_lt a b | Gt => lex_lt b a end.
Proof.
  induction a as [|x a IH]; intros [|y b]; cbn [lexc lex_lt]; auto. destruct (N.compare_spec x y) as [->|L|L]; auto. specialize (IH b). destruct (lexc a b); [congruence|auto|auto].
Qed.
Fixpoint ins (x : list N) (l : list (list N)) : list (list N) :=
  match l with [] => [x] | y :: l' => match lexc x y with Eq => l | Lt => x :: l | Gt => y :: ins x l' end end.
Lemma ins_in : forall x l z, In z (ins x l) <-> z = x \/ In z l.
Proof.
  intros x l z. induction l as [|y l IH]; cbn [ins]; [simpl; intuition|]. pose proof (lexc_spec x y) as C. destruct (lexc x y).
  - subst y. simpl. intuition.
  - simpl. intuition.
  - simpl. rewrite IH. intuition.
Qed.
Lemma ins_sorted : forall x l, StronglySorted lex_lt l -> StronglySorted lex_lt (ins x l).
Proof.
  intros x l H. induction H as [|y l S IH A]; cbn [ins]; [repeat constructor|]. pose proof (lexc_spec x y) as C. destruct (lexc x y).
  - constructor; auto.
  - constructor; [constructor; auto|]. constructor; auto. eapply Forall_impl; [|exact A]. cbv beta. intros z Z. eapply lex_lt_trans; eauto.
  - constructor; auto. apply Forall_forall. intros z Z. apply ins_in in Z. destruct Z as [->|Z]; auto. rewrite Forall_forall in A. auto.
Qed.
Definition sorted_set (l : list (list N)) : list (list N) := fold_right ins [] l.
Lemma sorted_set_in : forall l z, In z (sorted_set l) <-> In z l.
Proof. induction l as [|x l IH]; intros z; simpl; [tauto|]. rewrite ins_in, IH. intuition. Qed.
Lemma sorted_set_sorted : forall l, StronglySorted lex_lt (sorted_set l).
Proof. induction l; simpl; [constructor|]. now apply ins_sorted. Qed.
Lemma c_string_nonzero : forall k, bytes k -> Forall (fun c => (0 < c < 256)%N) (c_string k).
Proof. induction 1 as [|c k Hc _ IH]; cbn [c_string]; [constructor|]. destruct (N.eqb_spec c 0); constructor; auto. lia. Qed.
Lemma c_string_id : forall k, Forall (fun c => (0 < c < 256)%N) k -> c_string k = k.
Proof. induction 1 as [|c k Hc _ IH]; cbn [c_string]; auto. destruct (N.eqb_spec c 0); [lia|congruence]. Qed.
Lemma nonzero_bytes_b : forall k, Forall (fun c => (0 < c < 256)%N) k -> bytes k.
Proof. intros k H. eapply Forall_impl; [|exact H]. cbv beta. intros. lia. Qed.

Section Any.
Variable K : list (list N).
Hypothesis HN : K <> [].
Hypothesis HB : forall k, In k K -> bytes k.
Let W := sorted_set (map c_string K).
Lemma W_in : forall w, In w W <-> In w (map c_string K).
Proof. intros w. apply sorted_set_in. Qed.
Lemma W_ne : W <> [].
Proof. destruct K as [|k K']; [congruence|]. intros E. assert (H : In (c_string k) W) by (apply sorted_set_in; now left). rewrite E in H. destruct H. Qed.
Lemma W_nz : forall w, In w W -> Forall (fun c => (0 < c < 256)%N) w.
Proof. intros w H. apply W_in in H. apply in_map_iff in H. destruct H as (k & <- & H). apply c_string_nonzero. auto. Qed.
Lemma W_build : forall legacy fuel, sm_build legacy fuel K = sm_build legacy fuel W.
Proof.
  intros legacy fuel. apply build_same; auto; [intros w H; apply nonzero_bytes_b; now apply W_nz|]. intros w. rewrite <- W_in. assert (E : map c_string W = W); [|now rewrite E]. rewrite <- (map_id W) at 2. apply map_ext_in. intros a Ha. apply c_string_id. now apply W_nz.
Qed.
Lemma W_dict : forall fuel, sd_build fuel K = sd_build fuel W.
Proof. intros fuel. unfold sd_build. now rewrite W_build. Qed.
Lemma W_long : forall k, longest_key (map c_string K) k <-> longest_key W k.
Proof. intros k. unfold longest_key. rewrite W_in. split; intros (A & B); (split; [auto|]); intros k' H; apply B; now apply W_in. Qed.
Lemma W_perm : Permutation W (nodup (list_eq_dec N.eq_dec) (map c_string K)).
Proof.
  apply NoDup_Permutation; [|apply NoDup_nodup|intros w; rewrite nodup_In; apply W_in].
  assert (G : forall l, StronglySorted lex_lt l -> NoDup l). { induction 1 as [|x l S IH A]; constructor; auto. intros I. rewrite Forall_forall in A. apply (lex_lt_irrefl x). auto. }
  apply G. apply sorted_set_sorted.
Qed.
Theorem accept_any : forall legacy fuel, (forall k, In k K -> length (c_string k) < fuel) ->
  exists s, sm_build legacy fuel K = Ok s /\ forall q, bytes q ->
    (In q (map c_string K) -> sm_accept s q = Ok true) /\
    (~ In q (map c_string K) -> (forall k r, longest_key (map c_string K) k -> q <> k ++ 0%N :: r) -> sm_accept s q = Ok false) /\
    (forall k r, longest_key (map c_string K) k -> q = k ++ 0%N :: r -> sm_accept s q = UB).
Proof.
  intros legacy fuel HF. rewrite W_build. destruct (samc_accept legacy fuel W W_ne (sorted_set_sorted _) W_nz) as (s & E & A1 & A2 & A3).
  { intros w H. apply W_in in H. apply in_map_iff in H. destruct H as (k & <- & H). auto. }
  exists s. split; auto. intros q Q. split; [|split].
  - intros H. apply A1. now apply W_in.
  - intros H L. apply A2; auto; [intros I; apply H; now apply W_in|]. intros k r Lk. apply L. now apply W_long.
  - intros k r Lk ->. apply A3; auto. now apply W_long.
Qed.
Theorem dict_any : forall fuel, (forall k, In k K -> length (c_string k) < fuel) -> let D := nodup (list_eq_dec N.eq_dec) (map c_string K) in
  exists t id, sd_build fuel K = Ok t /\ Permutation (map id D) (seq 0 (length D)) /\ forall q, bytes q ->
    (In q D -> sd_lookup t q = Ok (Some (N.of_nat (id q)))) /\
    (~ In q D -> (forall k r, longest_key (map c_string K) k -> q <> k ++ 0%N :: r) -> sd_lookup t q = Ok None) /\
    ((N.of_nat (length (sm_storage (sd_samc t))) < 2 ^ 41)%N -> In q D -> sd_access (sel_bmi2 ctz64) t (id q) = Ok q \/ (512 <= id q /\ sd_access (sel_bmi2 ctz64) t (id q) = UB)).
Proof.
  intros fuel HF D. rewrite W_dict. destruct (samc_dict_ok fuel W W_ne (sorted_set_sorted _) W_nz) as (t & id & E & P & A1 & A2 & A3).
  { intros w H. apply W_in in H. apply in_map_iff in H. destruct H as (k & <- & H). auto. }
  exists t, id. split; auto. assert (DW : forall q, In q D <-> In q W) by (intros q; unfold D; rewrite nodup_In; symmetry; apply W_in). split.
  - pose proof W_perm as WP. fold D in WP. rewrite <- (Permutation_length WP). rewrite <- P. apply Permutation_map. now apply Permutation_sym.
  - intros q Q. split; [intros H; apply A1; now apply DW|]. split.
    + intros H L. apply A2; auto; [intros I; apply H; now apply DW|]. intros k r Lk. apply L. now apply W_long.
    + intros Sz H. apply (A3 Sz); [intros x _ X; now apply selw_bmi2|now apply DW].
Qed.
End Any.
