(** Proofs about the lane swaps and the 256-bit words. *)
From Coq Require Import List NArith ZArith Lia Bool Arith.
From Coq Require Import ZifyBool ZifyNat ZifyN.
From Verif Require Import Base Spec BitUtilModel BitUtilProof BitUtilProof2.
Import ListNotations.
Ltac Zify.zify_post_hook ::= Z.div_mod_to_equations.
Open Scope N_scope.

Definition swap_check (lo hi k : N) : bool :=
  forallb (fun i => if N.testbit lo i
                    then (N.testbit hi (i + k)) && (N.lxor i k =? i + k) && negb ((k <=? i) && N.testbit lo (i - k))
                    else (k <=? i) && N.testbit lo (i - k) && (N.lxor i k =? i - k) && negb (N.testbit hi (i + k)))
          (map N.of_nat (seq 0 64)).

Lemma xswap_bits : forall lo hi k x i, swap_check lo hi k = true -> i < 64 ->
  N.testbit (xswap lo hi k x) i = N.testbit x (N.lxor i k).
Proof.
  intros. pose proof (sweep _ 64 H i H0) as S. cbv beta in S. clear H.
  unfold xswap. rewrite N.lor_spec, wshl_spec, N.shiftr_spec', !N.land_spec.
  destruct (N.ltb_spec i 64); [|lia]. clear H.
  destruct (N.testbit lo i).
  - apply andb_true_iff in S. destruct S as [S S3]. apply andb_true_iff in S. destruct S as [S1 S2].
    apply N.eqb_eq in S2. rewrite S1, S2. rewrite andb_true_r. apply negb_true_iff in S3.
    destruct (k <=? i); simpl in *; auto. rewrite S3. now rewrite andb_false_r.
  - apply andb_true_iff in S. destruct S as [S S4]. apply andb_true_iff in S. destruct S as [S S3].
    apply andb_true_iff in S. destruct S as [S1 S2].
    apply N.eqb_eq in S3. apply negb_true_iff in S4. rewrite S1, S2, S3, S4. simpl.
    now rewrite andb_true_r, andb_false_r, orb_false_r.
Qed.

Lemma swap_pi1_bits : forall x i, i < 64 -> N.testbit (swap_pi1 x) i = N.testbit x (N.lxor i 1).
Proof. intros. unfold swap_pi1. rewrite N.lor_comm. now apply (xswap_bits 0x5555555555555555 0xAAAAAAAAAAAAAAAA 1). Qed.
Lemma swap_pi2_bits : forall x i, i < 64 -> N.testbit (swap_pi2 x) i = N.testbit x (N.lxor i 2).
Proof. intros. unfold swap_pi2. rewrite N.lor_comm. now apply (xswap_bits 0x3333333333333333 0xCCCCCCCCCCCCCCCC 2). Qed.
Lemma swap_pi4_bits : forall x i, i < 64 -> N.testbit (swap_pi4 x) i = N.testbit x (N.lxor i 4).
Proof. intros. unfold swap_pi4. rewrite N.lor_comm. now apply (xswap_bits 0x0F0F0F0F0F0F0F0F 0xF0F0F0F0F0F0F0F0 4). Qed.

Lemma word_swap32_bits : forall x i, x < 2 ^ 64 -> i < 64 ->
  N.testbit (N.lor (wshl x 32) (N.shiftr x 32)) i = N.testbit x (N.lxor i 32).
Proof.
  intros. rewrite N.lor_spec, wshl_spec, N.shiftr_spec'.
  destruct (N.ltb_spec i 64); [|lia]. 
  assert (N.lxor i 32 = if 32 <=? i then i - 32 else i + 32).
  { apply N.eqb_eq. revert i H0 H1. intros i Hi _. revert i Hi.
    apply (sweep (fun i => N.lxor i 32 =? (if 32 <=? i then i - 32 else i + 32)) 64). reflexivity. }
  rewrite H2. destruct (N.leb_spec 32 i); simpl; auto.
  rewrite (testbit_high x 64 (i + 32)) by (auto; lia). now rewrite orb_false_r.
Qed.

Lemma swap_pi32_bits : forall x i, x < 2 ^ 64 -> i < 64 -> N.testbit (swap_pi32 x) i = N.testbit x (N.lxor i 32).
Proof. intros. unfold swap_pi32. rewrite N.lor_comm. now apply word_swap32_bits. Qed.

(** lanes *)
Lemma lanes_map_bits : forall n lw f x i, 0 < lw -> (forall a, a < 2 ^ lw -> f a < 2 ^ lw) -> i < N.of_nat n * lw ->
  N.testbit (lanes_map n lw f x) i = N.testbit (f (N.shiftr x (lw * (i / lw)) mod 2 ^ lw)) (i mod lw).
Proof.
  induction n; intros lw f x i Hlw Hf Hi; [lia|]. cbn [lanes_map].
  assert (x mod 2 ^ lw < 2 ^ lw) by (apply N.mod_upper_bound, N.pow_nonzero; lia).
  rewrite testbit_join by (now apply Hf). destruct (N.ltb_spec i lw).
  - rewrite N.div_small, (N.mod_small i lw) by auto. now rewrite N.mul_0_r, N.shiftr_0_r.
  - rewrite IHn by (auto; lia). rewrite N.shiftr_shiftr.
    assert (E : i = (i - lw) + 1 * lw) by lia.
    rewrite E at 3 4. rewrite N.div_add, N.mod_add by lia. do 4 f_equal. ring.
Qed.

Lemma lanes_shl_bits : forall n lw k x i, k < lw -> i < N.of_nat n * lw ->
  N.testbit (slli_pi n lw k x) i = (k <=? i mod lw) && N.testbit x (i - k).
Proof.
  intros. unfold slli_pi. rewrite lanes_map_bits by (auto; try lia; intros; apply N.mod_upper_bound, N.pow_nonzero; lia).
  assert (i mod lw < lw) by (apply N.mod_upper_bound; lia).
  rewrite N.mod_pow2_bits_low by auto.
  destruct (N.leb_spec k (i mod lw)); simpl.
  - rewrite N.shiftl_spec_high' by auto. rewrite N.mod_pow2_bits_low by lia. rewrite N.shiftr_spec'. f_equal.
    pose proof (N.div_mod' i lw) as Hd. generalize dependent (i / lw). generalize dependent (i mod lw). intros; lia.
  - now rewrite N.shiftl_spec_low.
Qed.

Lemma lanes_shr_bits : forall n lw k x i, k < lw -> i < N.of_nat n * lw ->
  N.testbit (srli_pi n lw k x) i = (i mod lw + k <? lw) && N.testbit x (i + k).
Proof.
  intros. unfold srli_pi. rewrite lanes_map_bits; auto; try lia.
  2:{ intros. eapply N.le_lt_trans; [apply shiftr_le|auto]. }
  assert (i mod lw < lw) by (apply N.mod_upper_bound; lia).
  rewrite N.shiftr_spec'.
  destruct (N.ltb_spec (i mod lw + k) lw); simpl.
  - rewrite N.mod_pow2_bits_low by lia. rewrite N.shiftr_spec'. f_equal.
    pose proof (N.div_mod' i lw) as Hd. generalize dependent (i / lw). generalize dependent (i mod lw). intros; lia.
  - now rewrite N.mod_pow2_bits_high.
Qed.

Lemma swap_pi8_bits : forall x i, i < 64 -> N.testbit (swap_pi8 x) i = N.testbit x (N.lxor i 8).
Proof.
  intros. unfold swap_pi8. rewrite N.lor_spec, lanes_shl_bits, lanes_shr_bits by lia.
  assert (N.lxor i 8 =? (if 8 <=? i mod 16 then i - 8 else i + 8) = true) as E.
  { revert i H. apply (sweep (fun i => N.lxor i 8 =? (if 8 <=? i mod 16 then i - 8 else i + 8)) 64). reflexivity. }
  apply N.eqb_eq in E. rewrite E.
  destruct (N.leb_spec 8 (i mod 16)), (N.ltb_spec (i mod 16 + 8) 16); simpl; try lia; auto.
  now rewrite orb_false_r.
Qed.

Lemma swap_pi16_bits : forall x i, i < 64 -> N.testbit (swap_pi16 x) i = N.testbit x (N.lxor i 16).
Proof.
  intros. unfold swap_pi16. rewrite N.lor_spec, lanes_shl_bits, lanes_shr_bits by lia.
  assert (N.lxor i 16 =? (if 16 <=? i mod 32 then i - 16 else i + 16) = true) as E.
  { revert i H. apply (sweep (fun i => N.lxor i 16 =? (if 16 <=? i mod 32 then i - 16 else i + 16)) 64). reflexivity. }
  apply N.eqb_eq in E. rewrite E.
  destruct (N.leb_spec 16 (i mod 32)), (N.ltb_spec (i mod 32 + 16) 32); simpl; try lia; auto.
  now rewrite orb_false_r.
Qed.

(** *** xor_map *)
Local Notation words := words256.

Lemma words_nth : forall x i, words x -> nth i x 0 < 2 ^ 64.
Proof.
  intros x i [_ H]. destruct (nth_in_or_default i x 0) as [E|E].
  - rewrite Forall_forall in H. auto.
  - rewrite E. reflexivity.
Qed.

Lemma words_map : forall f x, words x -> (forall w, w < 2 ^ 64 -> f w < 2 ^ 64) -> words (map f x).
Proof.
  intros f x [H1 H2] Hf. split; [now rewrite map_length|]. apply Forall_map. eapply Forall_impl; [|exact H2]. auto.
Qed.

Lemma xor_word_step : forall k f x, k < 64 ->
  (forall w i, w < 2 ^ 64 -> i < 64 -> N.testbit (f w) i = N.testbit w (N.lxor i k)) ->
  words x -> forall i, i < 256 -> bit256 (map f x) i = bit256 x (N.lxor i k).
Proof.
  intros k f x Hk Hf Hx i Hi. unfold bit256.
  assert (forallb (fun k => forallb (fun i => (N.lxor i k / 64 =? i / 64) && (N.lxor i k mod 64 =? N.lxor (i mod 64) k))
     (map N.of_nat (seq 0 256))) (map N.of_nat (seq 0 64)) = true) as S by (vm_compute; reflexivity).
  pose proof (sweep _ 64 S k Hk) as S1. cbv beta in S1. pose proof (sweep _ 256 S1 i Hi) as S2. cbv beta in S2. clear S S1.
  apply andb_true_iff in S2. destruct S2 as [E1 E2]. apply N.eqb_eq in E1. apply N.eqb_eq in E2. rewrite E1, E2.
  assert (N.to_nat (i / 64) < 4)%nat by lia.
  rewrite nth_indep with (d' := f 0) by (rewrite map_length; destruct Hx; lia).
  rewrite map_nth. apply Hf; [now apply words_nth|]. apply N.mod_upper_bound. lia.
Qed.

Lemma lor_lt : forall a b w, a < 2 ^ w -> b < 2 ^ w -> N.lor a b < 2 ^ w.
Proof.
  intros. apply lt_pow2_bits; intros. rewrite N.lor_spec, (testbit_high a w), (testbit_high b w); auto.
Qed.
Lemma wshl_lt : forall x k, wshl x k < 2 ^ 64.
Proof. intros. apply wrap64_lt. Qed.

Lemma xswap_lt : forall lo hi k x, hi < 2 ^ 64 -> xswap lo hi k x < 2 ^ 64.
Proof.
  intros. unfold xswap. apply lor_lt; [apply wshl_lt|]. eapply N.le_lt_trans; [apply shiftr_le|].
  eapply N.le_lt_trans; [apply land_le_r|auto].
Qed.

(** one conditional stage *)
Definition stage (mask b : N) (f : list N -> list N) (d : list N) : list N := if N.land mask b =? 0 then d else f d.
Definition moves (k : N) (f : list N -> list N) : Prop := forall d, words d ->
  words (f d) /\ forall i, i < 256 -> bit256 (f d) i = bit256 d (N.lxor i k).

Lemma stage_moves : forall mask j f, moves (2 ^ j) f ->
  moves (N.land mask (2 ^ j)) (stage mask (2 ^ j) f).
Proof.
  intros mask j f Hf d Hd. unfold stage. destruct (N.eqb_spec (N.land mask (2 ^ j)) 0) as [E|E].
  - split; auto. intros. rewrite E. now rewrite N.lxor_0_r.
  - assert (N.land mask (2 ^ j) = 2 ^ j) as ->; [|now apply Hf].
    apply N.bits_inj; intro i. rewrite N.land_spec. destruct (N.eq_dec i j).
    + subst i. rewrite N.pow2_bits_true. destruct (N.testbit mask j) eqn:Em; auto.
      exfalso. apply E. apply N.bits_inj; intro i. rewrite N.land_spec, N.bits_0.
      destruct (N.eq_dec i j); [subst; now rewrite Em|]. rewrite N.pow2_bits_false by auto. now rewrite andb_false_r.
    + rewrite N.pow2_bits_false by auto. now rewrite andb_false_r.
Qed.

Lemma lxor_lt256 : forall i k, i < 256 -> k < 256 -> N.lxor i k < 256.
Proof.
  intros. apply (lt_pow2_bits _ 8). intros. rewrite N.lxor_spec, (testbit_high i 8), (testbit_high k 8); auto.
Qed.

Lemma moves_comp : forall k1 k2 f g, k2 < 256 -> moves k1 f -> moves k2 g -> moves (N.lxor k1 k2) (fun d => g (f d)).
Proof.
  intros k1 k2 f g Hk Hf Hg d Hd. destruct (Hf d Hd) as [W1 B1]. destruct (Hg (f d) W1) as [W2 B2].
  split; auto. intros. rewrite B2 by auto. rewrite B1 by (now apply lxor_lt256).
  f_equal. rewrite N.lxor_assoc. f_equal. apply N.lxor_comm.
Qed.

Lemma moves_swap : forall lo hi k, k < 64 -> hi < 2 ^ 64 -> swap_check lo hi k = true -> moves k (map (xswap lo hi k)).
Proof.
  intros. split.
  - apply words_map; auto. intros. now apply xswap_lt.
  - intros. apply xor_word_step; auto. intros. now apply xswap_bits.
Qed.

Lemma moves_32 : moves 32 (map (fun w => N.lor (wshl w 32) (N.shiftr w 32))).
Proof.
  intros d Hd. split.
  - apply words_map; auto. intros. apply lor_lt; [apply wshl_lt|]. eapply N.le_lt_trans; [apply shiftr_le|auto].
  - intros. apply xor_word_step; auto; [lia|]. intros. now apply word_swap32_bits.
Qed.

Lemma words_inv : forall d, words d -> exists a b c e, d = [a; b; c; e] /\ a < 2 ^ 64 /\ b < 2 ^ 64 /\ c < 2 ^ 64 /\ e < 2 ^ 64.
Proof.
  intros d [H1 H2]. destruct d as [|a [|b [|c [|e [|]]]]]; try discriminate.
  exists a, b, c, e. split; auto. repeat match goal with H : Forall _ (_ :: _) |- _ => inversion H; clear H; subst end. auto.
Qed.

Lemma moves_word : forall k (f : list N -> list N) (s : nat -> nat), k < 256 ->
  (forall d, words d -> words (f d)) ->
  (forall d j, words d -> (j < 4)%nat -> nth j (f d) 0 = nth (s j) d 0) ->
  forallb (fun i => (N.lxor i k / 64 =? N.of_nat (s (N.to_nat (i / 64)))) && (N.lxor i k mod 64 =? i mod 64))
     (map N.of_nat (seq 0 256)) = true ->
  moves k f.
Proof.
  intros k f s Hk Hw Hn HS d Hd. split; auto. intros i Hi.
  pose proof (sweep _ 256 HS i Hi) as S2. cbv beta in S2. apply andb_true_iff in S2. destruct S2 as [E1 E2].
  apply N.eqb_eq in E1. apply N.eqb_eq in E2. unfold bit256. rewrite E1, E2. rewrite Nnat.Nat2N.id.
  rewrite Hn by (auto; lia). reflexivity.
Qed.

Lemma moves_64 : moves 64 (fun d => match d with [a; b; c; e] => [b; a; e; c] | _ => d end).
Proof.
  apply moves_word with (s := fun j => nth j [1;0;3;2]%nat 0%nat); [lia| | |vm_compute; reflexivity].
  - intros d Hd. destruct (words_inv d Hd) as (a & b & c & e & -> & ? & ? & ? & ?). split; auto.
  - intros d j Hd Hj. destruct (words_inv d Hd) as (a & b & c & e & -> & _).
    destruct j as [|[|[|[|]]]]; try lia; reflexivity.
Qed.
Lemma moves_128 : moves 128 (fun d => match d with [a; b; c; e] => [c; e; a; b] | _ => d end).
Proof.
  apply moves_word with (s := fun j => nth j [2;3;0;1]%nat 0%nat); [lia| | |vm_compute; reflexivity].
  - intros d Hd. destruct (words_inv d Hd) as (a & b & c & e & -> & ? & ? & ? & ?). split; auto.
  - intros d j Hd Hj. destruct (words_inv d Hd) as (a & b & c & e & -> & _).
    destruct j as [|[|[|[|]]]]; try lia; reflexivity.
Qed.

Lemma land_lt256 : forall m b, b < 256 -> N.land m b < 256.
Proof. intros. eapply N.le_lt_trans; [apply land_le_r|auto]. Qed.

Lemma xor_map_moves : forall m, m < 256 -> moves m (fun x => xor_map x m).
Proof.
  intros m Hm.
  assert (E : m = N.lxor (N.lxor (N.lxor (N.lxor (N.lxor (N.lxor (N.lxor (N.land m (2 ^ 0)) (N.land m (2 ^ 1))) (N.land m (2 ^ 2)))
     (N.land m (2 ^ 3))) (N.land m (2 ^ 4))) (N.land m (2 ^ 5))) (N.land m (2 ^ 6))) (N.land m (2 ^ 7))).
  { apply N.eqb_eq. revert m Hm. apply (sweep (fun m => m =? N.lxor (N.lxor (N.lxor (N.lxor (N.lxor (N.lxor (N.lxor (N.land m (2 ^ 0)) (N.land m (2 ^ 1))) (N.land m (2 ^ 2)))
     (N.land m (2 ^ 3))) (N.land m (2 ^ 4))) (N.land m (2 ^ 5))) (N.land m (2 ^ 6))) (N.land m (2 ^ 7))) 256). vm_compute. reflexivity. }
  rewrite E at 1.
  assert (X : forall x, xor_map x m =
    stage m (2 ^ 7) (fun d => match d with [a; b; c; e] => [c; e; a; b] | _ => d end)
   (stage m (2 ^ 6) (fun d => match d with [a; b; c; e] => [b; a; e; c] | _ => d end)
   (stage m (2 ^ 5) (map (fun w => N.lor (wshl w 32) (N.shiftr w 32)))
   (stage m (2 ^ 4) (map (xswap 0x0000FFFF0000FFFF 0xFFFF0000FFFF0000 16))
   (stage m (2 ^ 3) (map (xswap 0x00FF00FF00FF00FF 0xFF00FF00FF00FF00 8))
   (stage m (2 ^ 2) (map (xswap 0x0F0F0F0F0F0F0F0F 0xF0F0F0F0F0F0F0F0 4))
   (stage m (2 ^ 1) (map (xswap 0x3333333333333333 0xCCCCCCCCCCCCCCCC 2))
   (stage m (2 ^ 0) (map (xswap 0x5555555555555555 0xAAAAAAAAAAAAAAAA 1)) x)))))))) by reflexivity.
  clear E. intros x Hx. rewrite X. revert x Hx.
  apply (moves_comp _ _ (fun x => stage m (2 ^ 6) _ (stage m (2 ^ 5) _ (stage m (2 ^ 4) _ (stage m (2 ^ 3) _ (stage m (2 ^ 2) _ (stage m (2 ^ 1) _ (stage m (2 ^ 0) _ x))))))));
   [apply land_lt256; reflexivity| |apply stage_moves, moves_128].
  apply (moves_comp _ _ (fun x => stage m (2 ^ 5) _ (stage m (2 ^ 4) _ (stage m (2 ^ 3) _ (stage m (2 ^ 2) _ (stage m (2 ^ 1) _ (stage m (2 ^ 0) _ x)))))));
   [apply land_lt256; reflexivity| |apply stage_moves, moves_64].
  apply (moves_comp _ _ (fun x => stage m (2 ^ 4) _ (stage m (2 ^ 3) _ (stage m (2 ^ 2) _ (stage m (2 ^ 1) _ (stage m (2 ^ 0) _ x))))));
   [apply land_lt256; reflexivity| |apply stage_moves, moves_32].
  apply (moves_comp _ _ (fun x => stage m (2 ^ 3) _ (stage m (2 ^ 2) _ (stage m (2 ^ 1) _ (stage m (2 ^ 0) _ x)))));
   [apply land_lt256; reflexivity| |apply stage_moves, moves_swap; reflexivity].
  apply (moves_comp _ _ (fun x => stage m (2 ^ 2) _ (stage m (2 ^ 1) _ (stage m (2 ^ 0) _ x))));
   [apply land_lt256; reflexivity| |apply stage_moves, moves_swap; reflexivity].
  apply (moves_comp _ _ (fun x => stage m (2 ^ 1) _ (stage m (2 ^ 0) _ x)));
   [apply land_lt256; reflexivity| |apply stage_moves, moves_swap; reflexivity].
  apply (moves_comp _ _ (fun x => stage m (2 ^ 0) _ x));
   [apply land_lt256; reflexivity| |apply stage_moves, moves_swap; reflexivity].
  apply stage_moves, moves_swap; reflexivity.
Qed.

Lemma bit256_ext : forall x y, words x -> words y -> (forall i, i < 256 -> bit256 x i = bit256 y i) -> x = y.
Proof.
  intros x y Hx Hy H. apply nth_ext_len with (d := 0); [destruct Hx, Hy; congruence|].
  intros j Hj. destruct Hx as [Lx Fx]. assert (j < 4)%nat by lia. 
  apply N.bits_inj; intro i. destruct (N.lt_ge_cases i 64).
  - specialize (H (64 * N.of_nat j + i)). unfold bit256 in H.
    replace ((64 * N.of_nat j + i) / 64) with (N.of_nat j) in H by lia.
    replace ((64 * N.of_nat j + i) mod 64) with i in H by lia. rewrite Nnat.Nat2N.id in H. apply H. lia.
  - rewrite !(testbit_high _ 64); auto; apply words_nth; auto. split; auto.
Qed.

Lemma xor_map_involutive : forall x m, words x -> m < 256 -> xor_map (xor_map x m) m = x.
Proof.
  intros. destruct (xor_map_moves m H0 x H) as [W1 B1]. destruct (xor_map_moves m H0 _ W1) as [W2 B2].
  apply bit256_ext; auto. intros. rewrite B2, B1 by (auto; now apply lxor_lt256). f_equal.
  now rewrite N.lxor_assoc, N.lxor_nilpotent, N.lxor_0_r.
Qed.

(** *** 256-bit counters *)
Lemma value256_4 : forall a b c e, value256 [a; b; c; e] = a + 2 ^ 64 * (b + 2 ^ 64 * (c + 2 ^ 64 * e)).
Proof. intros. unfold value256. rewrite N.mul_0_r, N.add_0_r. reflexivity. Qed.

Lemma popcnt256_val : forall x, words x -> popcnt256 x = N.of_nat (ones_below 256 (value256 x)).
Proof.
  intros x Hx. destruct (words_inv x Hx) as (a & b & c & e & -> & Ha & Hb & Hc & He).
  rewrite value256_4. unfold popcnt256. cbn [fold_left]. rewrite !popcnt64_spec by auto.
  change 64 with (N.of_nat 64) in *. 
  change 256%nat with (64 + 192)%nat. rewrite ones_below_join by auto.
  change 192%nat with (64 + 128)%nat. rewrite ones_below_join by auto.
  change 128%nat with (64 + 64)%nat. rewrite ones_below_join by auto. lia.
Qed.

Lemma is_zero256_val : forall x, words x -> (is_zero256 x = true <-> value256 x = 0).
Proof.
  intros x Hx. destruct (words_inv x Hx) as (a & b & c & e & -> & Ha & Hb & Hc & He).
  rewrite value256_4. unfold is_zero256. simpl forallb. change (2 ^ 64) with 18446744073709551616 in *.
  split; intro.
  - repeat (apply andb_true_iff in H; destruct H as [? H]); lia.
  - destruct (N.eqb_spec a 0), (N.eqb_spec b 0), (N.eqb_spec c 0), (N.eqb_spec e 0); auto; lia.
Qed.

Lemma lowest_join_lo : forall w a b p, a < 2 ^ w -> lowest_one a p -> lowest_one (a + 2 ^ w * b) p.
Proof.
  intros w a b p Ha [H1 H2]. assert (p < w).
  { destruct (N.lt_ge_cases p w); auto. rewrite (testbit_high a w) in H1 by auto. discriminate. }
  split; intros; rewrite testbit_join by auto.
  - destruct (N.ltb_spec p w); auto; lia.
  - destruct (N.ltb_spec i w); auto; lia.
Qed.

Lemma lowest_join_hi : forall w b p, lowest_one b p -> lowest_one (2 ^ w * b) (w + p).
Proof.
  intros w b p [H1 H2]. replace (2 ^ w * b) with (0 + 2 ^ w * b) by lia. pose proof (pow2_pos w).
  split; intros; rewrite testbit_join by auto.
  - destruct (N.ltb_spec (w + p) w); try lia. now replace (w + p - w) with p by lia.
  - destruct (N.ltb_spec i w); [apply N.bits_0|]. apply H2. lia.
Qed.

Lemma ctz256_val : forall x, words x -> 
  (value256 x = 0 -> ctz256 x = 256) /\ (value256 x <> 0 -> lowest_one (value256 x) (ctz256 x)).
Proof.
  intros x Hx. destruct (words_inv x Hx) as (a & b & c & e & -> & Ha & Hb & Hc & He).
  rewrite value256_4. unfold ctz256. 
  destruct (N.eqb_spec a 0) as [->|Na]; simpl negb; cbv iota.
  2:{ split; [change (2 ^ 64) with 18446744073709551616; lia|]. intros _. apply lowest_join_lo; auto. now apply ctz64_spec. }
  rewrite N.add_0_l.
  destruct (N.eqb_spec b 0) as [->|Nb]; simpl negb; cbv iota.
  2:{ split; [change (2 ^ 64) with 18446744073709551616; lia|]. intros _. change (64 * 1) with 64. apply lowest_join_hi, lowest_join_lo; auto. now apply ctz64_spec. }
  rewrite N.add_0_l.
  destruct (N.eqb_spec c 0) as [->|Nc]; simpl negb; cbv iota.
  2:{ split; [change (2 ^ 64) with 18446744073709551616; lia|]. intros _. replace (64 * 2 + ctz64 c) with (64 + (64 + ctz64 c)) by lia.
      apply lowest_join_hi, lowest_join_hi, lowest_join_lo; auto. now apply ctz64_spec. }
  rewrite N.add_0_l.
  destruct (N.eqb_spec e 0) as [->|Ne]; simpl negb; cbv iota.
  - split; auto. intro H. exfalso. apply H. reflexivity.
  - split; [change (2 ^ 64) with 18446744073709551616; lia|]. intros _. replace (64 * 3 + ctz64 e) with (64 + (64 + (64 + ctz64 e))) by lia.
      apply lowest_join_hi, lowest_join_hi, lowest_join_hi; auto. now apply ctz64_spec.
Qed.

(** *** forms used by the property file *)
Lemma ctz64_full : forall x, x < 2 ^ 64 -> (x = 0 -> ctz64 x = 64) /\ (x <> 0 -> lowest_one x (ctz64 x)).
Proof. intros. split; [intros ->; reflexivity|]. intro. now apply ctz64_spec. Qed.
Lemma ctz32_full : forall x, x < 2 ^ 32 -> (x = 0 -> ctz32 x = 32) /\ (x <> 0 -> lowest_one x (ctz32 x)).
Proof. intros. split; [intros ->; reflexivity|]. intro. now apply ctz32_spec. Qed.

Lemma highest_log2 : forall x, x <> 0 -> highest_one x (N.log2 x).
Proof. intros. split; [now apply N.bit_log2|]. intros. now apply N.bits_above_log2. Qed.

Lemma highest_unique : forall x p q, highest_one x p -> highest_one x q -> p = q.
Proof.
  intros x p q [H1 H2] [H3 H4]. destruct (N.lt_trichotomy p q) as [H|[H|H]]; auto.
  - rewrite H2 in H3 by auto. discriminate.
  - rewrite H4 in H1 by auto. discriminate.
Qed.

Lemma clz64_full : forall x, x < 2 ^ 64 ->
  (x = 0 -> clz64 x = 64) /\ (x <> 0 -> clz64 x <= 63 /\ highest_one x (63 - clz64 x)).
Proof.
  intros. split; [intros ->; reflexivity|]. intro. rewrite clz64_val by auto. split; [lia|].
  assert (N.log2 x < 64) by (apply N.log2_lt_pow2; lia).
  replace (63 - (63 - N.log2 x)) with (N.log2 x) by lia. now apply highest_log2.
Qed.
Lemma clz32_full : forall x, x < 2 ^ 32 ->
  (x = 0 -> clz32 x = 32) /\ (x <> 0 -> 32 <= clz32 x <= 63 /\ highest_one x (31 - (clz32 x - 32))).
Proof.
  intros. split; [intros ->; reflexivity|]. intro. rewrite clz32_val by auto.
  assert (N.log2 x < 32) by (apply N.log2_lt_pow2; lia). split; [lia|].
  replace (31 - (63 - N.log2 x - 32)) with (N.log2 x) by lia. now apply highest_log2.
Qed.

Lemma sel_good_word : forall x i, x < 2 ^ 64 ->
  N.land x 0x0F0F0F0F <> 0x0F0F0F0F -> N.land x 0xF0F0F0F0 <> 0xF0F0F0F0 ->
  1 <= i -> i <= N.of_nat (ones_below 64 x) ->
  exists p, (p < 64)%nat /\ sel x i = Ok (N.of_nat p + 1) /\
    N.testbit x (N.of_nat p) = true /\ N.of_nat (ones_below p x) + 1 = i.
Proof. intros. apply sel_good; auto. split; auto. Qed.

Lemma sel_bmi2_good : forall x i, x < 2 ^ 64 -> 1 <= i -> i <= N.of_nat (ones_below 64 x) ->
  exists p, (p < 64)%nat /\ sel_bmi2 ctz64 x i = Ok (N.of_nat p + 1) /\
    N.testbit x (N.of_nat p) = true /\ N.of_nat (ones_below p x) + 1 = i.
Proof.
  intros x i Hx H1 H2. pose proof (ones_below_le 64 x).
  destruct (pdep_pow2 64 0 (i - 1) x) as (p & Hp & E1 & E2 & E3).
  { rewrite N.shiftr_0_r. lia. }
  rewrite N.add_0_l in *. rewrite N.shiftr_0_r in E3.
  exists p. split; auto. split; [|split; auto; lia].
  assert (Ei : wsub i 1 = i - 1).
  { unfold wsub. replace (i + 2 ^ 64 - 1) with ((i - 1) + 1 * 2 ^ 64) by lia. rewrite N.mod_add by discriminate.
    apply N.mod_small. change (2 ^ 64) with 18446744073709551616. lia. }
  unfold sel_bmi2, shl64. rewrite Ei. destruct (N.ltb_spec (i - 1) 64); [|lia]. simpl bind.
  unfold wshl. rewrite N.shiftl_1_l, wrap64_small by (apply N.pow_lt_mono_r; lia).
  unfold pdep. rewrite E1. do 2 f_equal.
  destruct (ctz64_spec (2 ^ N.of_nat p)) as [C1 C2].
  { apply N.pow_nonzero. lia. } { apply N.pow_lt_mono_r; lia. }
  rewrite N.pow2_bits_eqb in C1. apply N.eqb_eq in C1. auto.
Qed.

Lemma xor_map_bits : forall m x i, m < 256 -> words256 x -> i < 256 ->
  words256 (xor_map x m) /\ bit256 (xor_map x m) i = bit256 x (N.lxor i m).
Proof. intros. destruct (xor_map_moves m H x H0). auto. Qed.

Lemma swaps_all : forall x i, x < 2 ^ 64 -> i < 64 ->
  N.testbit (swap_pi1 x) i = N.testbit x (N.lxor i 1) /\
  N.testbit (swap_pi2 x) i = N.testbit x (N.lxor i 2) /\
  N.testbit (swap_pi4 x) i = N.testbit x (N.lxor i 4) /\
  N.testbit (swap_pi8 x) i = N.testbit x (N.lxor i 8) /\
  N.testbit (swap_pi16 x) i = N.testbit x (N.lxor i 16) /\
  N.testbit (swap_pi32 x) i = N.testbit x (N.lxor i 32).
Proof.
  intros. repeat split; auto using swap_pi1_bits, swap_pi2_bits, swap_pi4_bits, swap_pi8_bits, swap_pi16_bits, swap_pi32_bits.
Qed.

Lemma highest_join_hi : forall w a b p, a < 2 ^ w -> highest_one b p -> highest_one (a + 2 ^ w * b) (w + p).
Proof.
  intros w a b p Ha [H1 H2]. split; intros; rewrite testbit_join by auto.
  - destruct (N.ltb_spec (w + p) w); try lia. now replace (w + p - w) with p by lia.
  - destruct (N.ltb_spec i w); [lia|]. apply H2. lia.
Qed.

Lemma clz256_wrong : forall x, words256 x -> value256 x <> 0 ->
  ~ (clz256 x <= 255 /\ highest_one (value256 x) (255 - clz256 x)).
Proof.
  intros x Hx Hv [Hle Hh]. destruct (words_inv x Hx) as (a & b & c & e & -> & Ha & Hb & Hc & He).
  rewrite value256_4 in *. unfold clz256 in *.
  destruct (N.eqb_spec e 0) as [Ee|Ne]; [subst e|]; cbn [negb] in *.
  2:{ destruct (proj2 (clz64_full e He) Ne) as [L1 L2].
      pose proof (highest_join_hi 64 a _ _ Ha (highest_join_hi 64 b _ _ Hb (highest_join_hi 64 c _ _ Hc L2))) as H.
      pose proof (highest_unique _ _ _ H Hh). lia. }
  destruct (N.eqb_spec c 0) as [Ec|Nc]; [subst c|]; cbn [negb] in *.
  2:{ destruct (proj2 (clz64_full c Hc) Nc) as [L1 L2].
      replace (c + 2 ^ 64 * 0) with c in Hh by lia.
      pose proof (highest_join_hi 64 a _ _ Ha (highest_join_hi 64 b _ _ Hb L2)) as H.
      pose proof (highest_unique _ _ _ H Hh). lia. }
  destruct (N.eqb_spec b 0) as [Eb|Nb]; [subst b|]; cbn [negb] in *.
  2:{ destruct (proj2 (clz64_full b Hb) Nb) as [L1 L2].
      replace (b + 2 ^ 64 * (0 + 2 ^ 64 * 0)) with b in Hh by lia.
      pose proof (highest_join_hi 64 a _ _ Ha L2) as H.
      pose proof (highest_unique _ _ _ H Hh). lia. }
  destruct (N.eqb_spec a 0) as [Ea|Na]; [subst a|]; cbn [negb] in *.
  - apply Hv. reflexivity.
  - destruct (proj2 (clz64_full a Ha) Na) as [L1 L2].
    replace (a + 2 ^ 64 * (0 + 2 ^ 64 * (0 + 2 ^ 64 * 0))) with a in Hh by lia.
    pose proof (highest_unique _ _ _ L2 Hh). lia.
Qed.
