(** Proofs about IterModel.v *)
From Coq Require Import List NArith ZArith Lia Bool Arith.
From Verif Require Import Base IterSpec DacModel IterModel.
Import ListNotations.
Local Open Scope nat_scope.

Definition at64 (z : Z) : N := Z.to_N (z mod 2 ^ 64)%Z.

Lemma at64_small : forall z, (0 <= z < 2 ^ 64)%Z -> at64 z = Z.to_N z.
Proof. intros. unfold at64. now rewrite Z.mod_small. Qed.

Lemma of_at64 : forall z, Z.of_N (at64 z) = (z mod 2 ^ 64)%Z.
Proof. intros. unfold at64. rewrite Z2N.id; auto. apply Z.mod_pos_bound. reflexivity. Qed.

Lemma it_add_at : forall z k, it_add (at64 z) k = at64 (z + k).
Proof. intros. unfold it_add. rewrite of_at64. unfold at64. now rewrite Zplus_mod_idemp_l. Qed.

Lemma wrap_at : forall x, wrap64 x = at64 (Z.of_N x).
Proof. intros. unfold wrap64, at64. change (2 ^ 64)%Z with (Z.of_N (2 ^ 64)). rewrite <- N2Z.inj_mod. now rewrite N2Z.id. Qed.

Lemma it_inc_at : forall z, it_inc (at64 z) = at64 (z + 1).
Proof. intros. unfold it_inc. rewrite wrap_at, N2Z.inj_add, of_at64. unfold at64. f_equal. now rewrite Zplus_mod_idemp_l. Qed.

Lemma it_dec_at : forall z, it_dec (at64 z) = at64 (z - 1).
Proof.
  intros. unfold it_dec. rewrite wrap_at, N2Z.inj_add, of_at64. unfold at64. f_equal. rewrite Zplus_mod_idemp_l.
  change (Z.of_N (2 ^ 64 - 1)) with (-1 + 1 * 2 ^ 64)%Z. rewrite Z.add_assoc, Z.mod_add by discriminate. reflexivity.
Qed.

Lemma it_walk_at : forall ms z, Forall legal_move ms -> it_walk (at64 z) ms = Ok (at64 (z + moved ms)).
Proof.
  unfold it_walk. induction ms as [|m ms IH]; intros z F; cbn [foldM moved].
  - now rewrite Z.add_0_r.
  - pose proof (Forall_inv F) as Fm. apply Forall_inv_tail in F. destruct m as [| |k|k]; cbn [it_step bind].
    + rewrite it_inc_at, IH by auto. f_equal. f_equal. lia.
    + rewrite it_dec_at, IH by auto. f_equal. f_equal. lia.
    + rewrite it_add_at, IH by auto. f_equal. f_equal. lia.
    + cbn [legal_move] in Fm. unfold it_sub. destruct (Z.eqb_spec k (- 2 ^ 63)); [lia|]. cbn [bind].
      rewrite it_add_at, IH by auto. f_equal. f_equal. lia.
Qed.

Lemma begin_at : dac_begin = at64 0. Proof. reflexivity. Qed.

Lemma nth_last : forall (l : list N) x, l <> [] -> nth (length l - 1) l x = last l x.
Proof.
  intros l x. destruct l as [|a l] using rev_ind; [congruence|]. intros _. rewrite last_last, app_length. cbn [length].
  replace (length l + 1 - 1) with (length l + 0) by lia. now rewrite app_nth2_plus.
Qed.

Section Iter.
Variables (d : dac) (l : list N).
Hypothesis (Hl : (Z.of_nat (length l) < 2 ^ 63)%Z).
Hypothesis (Hs : dac_size d = Ok (length l)).
Hypothesis (Hg : forall i, i < length l -> dac_get d i = Ok (nth i l 0%N)).

Lemma deref_at : forall z, (0 <= z < Z.of_nat (length l))%Z -> it_deref d (at64 z) = Ok (nth (Z.to_nat z) l 0%N).
Proof.
  intros z Hz. unfold it_deref. rewrite at64_small by lia.
  replace (N.to_nat (Z.to_N z)) with (Z.to_nat z) by lia. apply Hg. lia.
Qed.

Lemma loop_ok : forall n k out fuel, k + n = length l -> n <= fuel ->
  it_loop fuel d (at64 (Z.of_nat k)) (N.of_nat (length l)) out = Ok (out ++ skipn k l).
Proof.
  induction n as [|n IH]; intros k out fuel Hk Hf.
  - assert (k = length l) by lia. subst k. rewrite skipn_all, app_nil_r.
    assert (E : it_ne (at64 (Z.of_nat (length l))) (N.of_nat (length l)) = false).
    { unfold it_ne, it_eq. rewrite at64_small by lia. replace (Z.to_N (Z.of_nat (length l))) with (N.of_nat (length l)) by lia. now rewrite N.eqb_refl. }
    destruct fuel; cbn [it_loop]; rewrite E; reflexivity.
  - destruct fuel as [|fuel]; [lia|].
    assert (E : it_ne (at64 (Z.of_nat k)) (N.of_nat (length l)) = true).
    { unfold it_ne, it_eq. rewrite at64_small by lia. destruct (N.eqb_spec (Z.to_N (Z.of_nat k)) (N.of_nat (length l))); [lia|reflexivity]. }
    cbn [it_loop]. rewrite E, deref_at by lia. cbn [bind]. rewrite it_inc_at.
    replace (Z.of_nat k + 1)%Z with (Z.of_nat (S k)) by lia. rewrite IH by lia. f_equal. rewrite <- app_assoc. f_equal. cbn [app].
    rewrite Nat2Z.id. assert (Hlt : k < length l) by lia. clear - Hlt. revert k Hlt.
    induction l as [|a t IH]; intros k Hlt; [cbn [length] in Hlt; lia|]. destruct k; [reflexivity|]. cbn [skipn nth]. apply IH. cbn [length] in Hlt. lia.
Qed.

Lemma collect_ok : forall fuel, length l <= fuel -> dac_collect fuel d = Ok l.
Proof.
  intros. unfold dac_collect, dac_end. rewrite Hs. cbn [bind]. rewrite begin_at.
  change 0%Z with (Z.of_nat 0). now rewrite (loop_ok (length l) 0 [] fuel) by lia.
Qed.

Lemma walk_deref : forall ms, Forall legal_move ms -> (0 <= moved ms < Z.of_nat (length l))%Z ->
  exists pos, it_walk dac_begin ms = Ok pos /\ it_deref d pos = Ok (nth (Z.to_nat (moved ms)) l 0%N) /\
    forall p, (N.to_nat p + Z.to_nat (moved ms) < length l) -> it_index d pos p = Ok (nth (Z.to_nat (moved ms) + N.to_nat p) l 0%N).
Proof.
  intros ms F H. exists (at64 (moved ms)). rewrite begin_at, it_walk_at by auto. split; [reflexivity|]. split; [now apply deref_at|].
  intros p Hp. unfold it_index, it_plus. rewrite it_add_at. unfold to_ll.
  destruct (N.ltb_spec p (2 ^ 63)) as [Q|Q].
  - rewrite deref_at by lia. f_equal. f_equal. lia.
  - exfalso. change (2 ^ 63)%N with (Z.to_N (2 ^ 63)) in Q. lia.
Qed.

Lemma walk_compare : forall ms1 ms2, Forall legal_move ms1 -> Forall legal_move ms2 ->
  (0 <= moved ms1 <= Z.of_nat (length l))%Z -> (0 <= moved ms2 <= Z.of_nat (length l))%Z ->
  exists p q, it_walk dac_begin ms1 = Ok p /\ it_walk dac_begin ms2 = Ok q /\
    it_diff p q = (moved ms1 - moved ms2)%Z /\
    (it_eq p q = true <-> moved ms1 = moved ms2) /\ (it_ne p q = true <-> moved ms1 <> moved ms2) /\
    (it_lt p q = true <-> moved ms1 < moved ms2)%Z /\ (it_gt p q = true <-> moved ms1 > moved ms2)%Z /\
    (it_le p q = true <-> moved ms1 <= moved ms2)%Z /\ (it_ge p q = true <-> moved ms1 >= moved ms2)%Z.
Proof.
  intros ms1 ms2 F1 F2 H1 H2. exists (at64 (moved ms1)), (at64 (moved ms2)). rewrite begin_at, !it_walk_at by auto.
  split; [reflexivity|]. split; [reflexivity|]. set (a := moved ms1) in *. set (b := moved ms2) in *. clearbody a b. clear F1 F2.
  rewrite !at64_small by lia. split.
  - unfold it_diff. rewrite wrap_at. rewrite N2Z.inj_add, N2Z.inj_sub, !Z2N.id by lia. change (Z.of_N (2 ^ 64)) with (2 ^ 64)%Z.
    unfold at64. replace (a + (2 ^ 64 - b))%Z with (a - b + 1 * 2 ^ 64)%Z by lia. rewrite Z.mod_add by discriminate.
    unfold to_ll. destruct (Z.leb_spec 0 (a - b)).
    + rewrite Z.mod_small by lia. destruct (N.ltb_spec (Z.to_N (a - b)) (2 ^ 63)) as [Q|Q]; [now rewrite Z2N.id by lia|].
      exfalso. change (2 ^ 63)%N with (Z.to_N (2 ^ 63)) in Q. lia.
    + replace ((a - b) mod 2 ^ 64)%Z with (a - b + 2 ^ 64)%Z.
      2:{ rewrite <- (Z.mod_add (a - b) 1) by discriminate. rewrite Z.mod_small; lia. }
      destruct (N.ltb_spec (Z.to_N (a - b + 2 ^ 64)) (2 ^ 63)) as [Q|Q].
      * exfalso. change (2 ^ 63)%N with (Z.to_N (2 ^ 63)) in Q. lia.
      * rewrite Z2N.id by lia. lia.
  - unfold it_ne, it_ge, it_le, it_gt, it_lt, it_eq. rewrite !negb_true_iff. rewrite N.eqb_eq, N.eqb_neq, !N.ltb_lt, !N.ltb_ge. repeat split; intros; try lia.
Qed.

Lemma front_back : l <> [] -> dac_front d = Ok (hd 0%N l) /\ dac_back d = Ok (last l 0%N).
Proof.
  intros Hne. assert (L : 1 <= length l) by (destruct l; [congruence|cbn [length]; lia]). split.
  - unfold dac_front. rewrite Hg by lia. destruct l; reflexivity.
  - unfold dac_back. rewrite Hs. cbn [bind].
    replace (wrap64 (N.of_nat (length l) + (2 ^ 64 - 1))) with (N.of_nat (length l - 1)).
    + rewrite Nat2N.id, Hg by lia. f_equal. now apply nth_last.
    + rewrite wrap_at, N2Z.inj_add. change (Z.of_N (2 ^ 64 - 1)) with (-1 + 1 * 2 ^ 64)%Z. unfold at64.
      rewrite Z.add_assoc, Z.mod_add by discriminate. rewrite Z.mod_small by lia. lia.
Qed.
End Iter.
