(** Proofs about the AVX2 branches of bit_util256.hpp. *)
From Coq Require Import List NArith Lia Bool Arith.
From Verif Require Import Base Spec BitUtilModel BitUtilProof BitUtilProof2 XorMapProof HwModel.
Import ListNotations.
Ltac Zify.zify_post_hook ::= idtac.
Open Scope N_scope.

Lemma v_cmpeq64_nonzero : forall a, (if a =? 0 then 2 ^ 64 - 1 else 0) = if a =? 0 then 18446744073709551615 else 0.
Proof. intros. destruct (a =? 0); reflexivity. Qed.

Lemma is_zero256_avx2_val : forall x, words256 x -> (is_zero256_avx2 x = true <-> value256 x = 0).
Proof.
  intros x Hx. rewrite <- is_zero256_val by auto. destruct (words_inv x Hx) as (a & b & c & e & -> & _).
  unfold is_zero256_avx2, v_cmpeq64, v_set1, is_zero256. cbn [repeat combine map fst snd forallb]. rewrite !v_cmpeq64_nonzero.
  destruct (a =? 0), (b =? 0), (c =? 0), (e =? 0); vm_compute; split; congruence.
Qed.

(** every stage of the AVX2 version is the stage of the portable one *)
Lemma words_4 : forall a b c e, a < 2 ^ 64 -> b < 2 ^ 64 -> c < 2 ^ 64 -> e < 2 ^ 64 -> words256 [a; b; c; e].
Proof. intros. split; [reflexivity|]. repeat constructor; auto. Qed.

Lemma word_ext : forall x y, x < 2 ^ 64 -> y < 2 ^ 64 -> (forall i, i < 64 -> N.testbit x i = N.testbit y i) -> x = y.
Proof.
  intros x y Hx Hy H. apply N.bits_inj. intro i. destruct (N.lt_ge_cases i 64); [auto|]. now rewrite (testbit_high x 64), (testbit_high y 64).
Qed.

Lemma lanes_map_lt : forall n lw f x, (forall a, a < 2 ^ lw -> f a < 2 ^ lw) -> lanes_map n lw f x < 2 ^ (N.of_nat n * lw).
Proof.
  induction n; intros lw f x H; [reflexivity|]. cbn [lanes_map].
  assert (P := pow2_pos lw). assert (H1 := H (x mod 2 ^ lw) (N.mod_upper_bound _ _ (N.pow_nonzero 2 lw ltac:(discriminate)))).
  assert (H2 := IHn lw f (N.shiftr x lw) H). rewrite Nat2N.inj_succ, N.mul_succ_l, N.add_comm, N.pow_add_r. nia.
Qed.

Lemma shr_lane_lt : forall lw k a, a < 2 ^ lw -> N.shiftr a k < 2 ^ lw.
Proof. intros. eapply N.le_lt_trans; [apply shiftr_le|auto]. Qed.
Lemma shl_lane_lt : forall lw k a, a < 2 ^ lw -> N.shiftl a k mod 2 ^ lw < 2 ^ lw.
Proof. intros. apply N.mod_upper_bound, N.pow_nonzero. discriminate. Qed.

Lemma swap8_word : forall w, N.lor (srli_pi 4 16 8 w) (slli_pi 4 16 8 w) = xswap 0x00FF00FF00FF00FF 0xFF00FF00FF00FF00 8 w.
Proof.
  intro w. rewrite N.lor_comm. change (N.lor (slli_pi 4 16 8 w) (srli_pi 4 16 8 w)) with (swap_pi8 w). apply word_ext.
  - apply lor_lt; apply (lanes_map_lt 4 16); [apply shl_lane_lt|apply shr_lane_lt].
  - apply xswap_lt. reflexivity.
  - intros i Hi. rewrite swap_pi8_bits by auto. symmetry. apply xswap_bits; auto.
Qed.
Lemma swap16_word : forall w, N.lor (srli_pi 2 32 16 w) (slli_pi 2 32 16 w) = xswap 0x0000FFFF0000FFFF 0xFFFF0000FFFF0000 16 w.
Proof.
  intro w. rewrite N.lor_comm. change (N.lor (slli_pi 2 32 16 w) (srli_pi 2 32 16 w)) with (swap_pi16 w). apply word_ext.
  - apply lor_lt; apply (lanes_map_lt 2 32); [apply shl_lane_lt|apply shr_lane_lt].
  - apply xswap_lt. reflexivity.
  - intros i Hi. rewrite swap_pi16_bits by auto. symmetry. apply xswap_bits; auto.
Qed.
Lemma swap32_word : forall w, w < 2 ^ 64 -> w / 2 ^ 32 + 2 ^ 32 * (w mod 2 ^ 32) = N.lor (wshl w 32) (N.shiftr w 32).
Proof.
  intros w Hw. assert (L1 : w / 2 ^ 32 < 2 ^ 32) by (apply N.div_lt_upper_bound; [discriminate|]; exact Hw).
  assert (L2 : w mod 2 ^ 32 < 2 ^ 32) by (apply N.mod_upper_bound; discriminate).
  apply word_ext.
  - change (2 ^ 64) with (2 ^ 32 * 2 ^ 32). nia.
  - apply lor_lt; [apply wshl_lt|apply shr_lane_lt; auto].
  - intros i Hi. rewrite testbit_join by auto. rewrite word_swap32_bits by auto. destruct (N.ltb_spec i 32).
    + rewrite N.div_pow2_bits. f_equal. apply N.eqb_eq. 
      assert (S := sweep (fun i => i + 32 =? N.lxor i 32) 32 eq_refl i H). exact S.
    + assert (S := sweep (fun i => N.lxor (i + 32) 32 =? i) 32 eq_refl (i - 32) ltac:(lia)). cbv beta in S. apply N.eqb_eq in S.
      replace (i - 32 + 32) with i in S by lia. rewrite S. rewrite N.mod_pow2_bits_low by lia. reflexivity.
Qed.

Definition same_stage (f g : list N -> list N) : Prop := forall d, words256 d -> f d = g d /\ words256 (g d).
Lemma on_stage : forall m b f g d d', same_stage f g -> d = d' /\ words256 d' ->
  stage m b f d = stage m b g d' /\ words256 (stage m b g d').
Proof. intros m b f g d d' H [-> W]. unfold stage. destruct (N.land m b =? 0); auto. Qed.

Lemma xswap_stage : forall lo hi k, hi < 2 ^ 64 -> same_stage
  (fun x => v_or (v_slli64 k (v_and x (v_set1 lo))) (v_srli64 k (v_and x (v_set1 hi)))) (map (xswap lo hi k)).
Proof.
  intros lo hi k Hh d Hd. split.
  - destruct (words_inv d Hd) as (a & b & c & e & -> & _). reflexivity.
  - apply words_map; auto. intros. now apply xswap_lt.
Qed.

Lemma xor_map_avx2_eq : forall x m, words256 x -> xor_map_avx2 x m = xor_map x m.
Proof.
  intros x m Hx.
  assert (X : xor_map x m =
    stage m 128 (fun d => match d with [a; b; c; e] => [c; e; a; b] | _ => d end)
   (stage m 64 (fun d => match d with [a; b; c; e] => [b; a; e; c] | _ => d end)
   (stage m 32 (map (fun w => N.lor (wshl w 32) (N.shiftr w 32)))
   (stage m 16 (map (xswap 0x0000FFFF0000FFFF 0xFFFF0000FFFF0000 16))
   (stage m 8 (map (xswap 0x00FF00FF00FF00FF 0xFF00FF00FF00FF00 8))
   (stage m 4 (map (xswap 0x0F0F0F0F0F0F0F0F 0xF0F0F0F0F0F0F0F0 4))
   (stage m 2 (map (xswap 0x3333333333333333 0xCCCCCCCCCCCCCCCC 2))
   (stage m 1 (map (xswap 0x5555555555555555 0xAAAAAAAAAAAAAAAA 1)) x)))))))) by reflexivity.
  assert (Y : xor_map_avx2 x m =
    stage m 128 (fun x => v_permute2x128 x x 33)
   (stage m 64 (fun x => v_permute4x64 x 177)
   (stage m 32 (fun x => v_permutevar8x32 x (rev [6; 7; 4; 5; 2; 3; 0; 1]))
   (stage m 16 (fun x => v_or (v_srli32 16 x) (v_slli32 16 x))
   (stage m 8 (fun x => v_or (v_srli16 8 x) (v_slli16 8 x))
   (stage m 4 (fun x => v_or (v_slli64 4 (v_and x (v_set1 0x0F0F0F0F0F0F0F0F))) (v_srli64 4 (v_and x (v_set1 0xF0F0F0F0F0F0F0F0))))
   (stage m 2 (fun x => v_or (v_slli64 2 (v_and x (v_set1 0x3333333333333333))) (v_srli64 2 (v_and x (v_set1 0xCCCCCCCCCCCCCCCC))))
   (stage m 1 (fun x => v_or (v_slli64 1 (v_and x (v_set1 0x5555555555555555))) (v_srli64 1 (v_and x (v_set1 0xAAAAAAAAAAAAAAAA)))) x)))))))) by reflexivity.
  rewrite X, Y. clear X Y.
  match goal with |- ?a = ?b => assert (G : a = b /\ words256 b); [|exact (proj1 G)] end.
  apply on_stage.
  { intros d Hd. destruct (words_inv d Hd) as (a & b & c & e & -> & ? & ? & ? & ?). split; [reflexivity|now apply words_4]. }
  apply on_stage.
  { intros d Hd. destruct (words_inv d Hd) as (a & b & c & e & -> & ? & ? & ? & ?). split; [reflexivity|now apply words_4]. }
  apply on_stage.
  { intros d Hd. split.
    - destruct (words_inv d Hd) as (a & b & c & e & -> & ? & ? & ? & ?).
      cbn [map]. rewrite <- !swap32_word by auto. reflexivity.
    - apply (moves_32 d Hd). }
  apply on_stage.
  { intros d Hd. split.
    - destruct (words_inv d Hd) as (a & b & c & e & -> & ? & ? & ? & ?). cbn [map]. rewrite <- !swap16_word. reflexivity.
    - apply words_map; auto. intros. now apply xswap_lt. }
  apply on_stage.
  { intros d Hd. split.
    - destruct (words_inv d Hd) as (a & b & c & e & -> & ? & ? & ? & ?). cbn [map]. rewrite <- !swap8_word. reflexivity.
    - apply words_map; auto. intros. now apply xswap_lt. }
  apply on_stage; [apply xswap_stage; reflexivity|].
  apply on_stage; [apply xswap_stage; reflexivity|].
  apply on_stage; [apply xswap_stage; reflexivity|].
  split; [reflexivity|auto].
Qed.

Lemma xor_map_avx2_bits : forall m x i, m < 256 -> words256 x -> i < 256 ->
  words256 (xor_map_avx2 x m) /\ bit256 (xor_map_avx2 x m) i = bit256 x (N.lxor i m).
Proof. intros. rewrite xor_map_avx2_eq by auto. now apply xor_map_bits. Qed.

(** *** copy256_epi64 *)
Local Open Scope nat_scope.
Definition copied (mem mem' : list N) (src dst p n : nat) : Prop := length mem' = length mem /\
  forall j, nth j mem' 0%N = if (dst <=? j) && (j <? dst + n) then nth (src + (j - dst) mod p) mem 0%N else nth j mem 0%N.

Lemma copy256_val : forall mem src dst, src + 4 <= length mem -> dst + 4 <= length mem ->
  exists mem', copy256 mem src dst = Ok mem' /\ copied mem mem' src dst (if src <? dst then dst - src else 4) 4.
Proof.
  intros mem src dst Hs Hd. unfold copy256. set (p := if src <? dst then dst - src else 4).
  assert (Hp : p <> 0) by (unfold p; destruct (Nat.ltb_spec src dst); lia).
  set (f := fun mem i => do w <- lget mem (src + i); lset mem (dst + i) w).
  assert (G : forall n, n <= 4 -> exists mem', foldM f (seq 0 n) mem = Ok mem' /\ copied mem mem' src dst p n).
  { induction n; intros Hn.
    - exists mem. split; [reflexivity|]. split; auto. intro j.
      destruct (Nat.leb_spec dst j), (Nat.ltb_spec j (dst + 0)); cbn [andb]; auto; lia.
    - destruct IHn as (mem1 & E & L & V); [lia|]. rewrite seq_S, foldM_app, E. cbn [bind foldM Nat.add]. unfold f at 1.
      rewrite (lget_nth _ _ _ 0%N) by lia. cbn [bind]. rewrite lset_Ok by lia. cbn [bind]. eexists. split; [reflexivity|].
      split; [now rewrite upd_length|]. intro j. rewrite nth_upd, L. destruct (Nat.eqb_spec j (dst + n)).
      + subst j. destruct (Nat.ltb_spec (dst + n) (length mem)); [|lia]. cbn [andb]. rewrite V.
        destruct (Nat.leb_spec dst (dst + n)); [|lia]. destruct (Nat.ltb_spec (dst + n) (dst + S n)); [|lia]. cbn [andb].
        replace (dst + n - dst) with n by lia.
        destruct (Nat.leb_spec dst (src + n)), (Nat.ltb_spec (src + n) (dst + n)); cbn [andb].
        * f_equal. f_equal. unfold p in *. destruct (Nat.ltb_spec src dst); [|lia].
          replace n with ((n - (dst - src)) + 1 * (dst - src)) at 2 by lia. rewrite Nat.mod_add by lia. f_equal. lia.
        * f_equal. f_equal. unfold p in *. destruct (Nat.ltb_spec src dst); [lia|]. symmetry. apply Nat.mod_small. lia.
        * f_equal. f_equal. unfold p in *. destruct (Nat.ltb_spec src dst); [|lia]. symmetry. apply Nat.mod_small. lia.
        * lia.
      + cbn [andb]. rewrite V. destruct (Nat.leb_spec dst j); cbn [andb]; auto.
        destruct (Nat.ltb_spec j (dst + n)), (Nat.ltb_spec j (dst + S n)); auto; lia. }
  apply G. lia.
Qed.

Lemma copy256_avx2_val : forall mem src dst, src + 4 <= length mem -> dst + 4 <= length mem -> src mod 4 = 0 -> dst mod 4 = 0 ->
  exists mem', copy256_avx2 mem src dst = Ok mem' /\ copied mem mem' src dst 4 4.
Proof.
  intros mem src dst Hs Hd Es Ed. unfold copy256_avx2. rewrite Es, Ed. cbn [Nat.eqb andb negb].
  assert (R : mapM (fun i => lget mem (src + i)) (seq 0 4) = Ok (map (fun i => nth (src + i) mem 0%N) (seq 0 4))).
  { cbn [seq mapM map]. rewrite !(lget_nth _ _ _ 0%N) by lia. reflexivity. }
  rewrite R. cbn [bind]. clear R.
  set (r := map (fun i => nth (src + i) mem 0%N) (seq 0 4)).
  assert (Hr : forall i, i < 4 -> nth i r 0%N = nth (src + i mod 4) mem 0%N).
  { intros i Hi. rewrite Nat.mod_small by auto. unfold r. rewrite nth_indep with (d' := nth (src + 0) mem 0%N) by (rewrite map_length, seq_length; lia).
    rewrite (map_nth (fun i => nth (src + i) mem 0%N)). rewrite seq_nth by auto. reflexivity. }
  clearbody r. set (f := fun mem i => lset mem (dst + i) (nth i r 0%N)).
  assert (G : forall n, n <= 4 -> exists mem', foldM f (seq 0 n) mem = Ok mem' /\ copied mem mem' src dst 4 n).
  { induction n; intros Hn.
    - exists mem. split; [reflexivity|]. split; auto. intro j.
      destruct (Nat.leb_spec dst j), (Nat.ltb_spec j (dst + 0)); cbn [andb]; auto; lia.
    - destruct IHn as (mem1 & E & L & V); [lia|]. rewrite seq_S, foldM_app, E. cbn [bind foldM Nat.add]. unfold f at 1.
      rewrite lset_Ok by lia. cbn [bind]. eexists. split; [reflexivity|].
      split; [now rewrite upd_length|]. intro j. rewrite nth_upd, L. destruct (Nat.eqb_spec j (dst + n)).
      + subst j. destruct (Nat.ltb_spec (dst + n) (length mem)); [|lia]. cbn [andb]. rewrite Hr by lia.
        destruct (Nat.leb_spec dst (dst + n)); [|lia]. destruct (Nat.ltb_spec (dst + n) (dst + S n)); [|lia]. cbn [andb].
        replace (dst + n - dst) with n by lia. reflexivity.
      + cbn [andb]. rewrite V. destruct (Nat.leb_spec dst j); cbn [andb]; auto.
        destruct (Nat.ltb_spec j (dst + n)), (Nat.ltb_spec j (dst + S n)); auto; lia. }
  apply G. lia.
Qed.

(** what the two theorems of Prop_Hw say, without [copied] *)
Lemma copy256_exact : forall mem src dst, src + 4 <= length mem -> dst + 4 <= length mem ->
  exists mem', copy256 mem src dst = Ok mem' /\ length mem' = length mem /\
   (forall i, i < 4 -> nth (dst + i) mem' 0%N = nth (src + i mod (if src <? dst then dst - src else 4)) mem 0%N) /\
   (forall j, j < dst \/ dst + 4 <= j -> nth j mem' 0%N = nth j mem 0%N).
Proof.
  intros mem src dst Hs Hd. destruct (copy256_val mem src dst Hs Hd) as (mem' & E & L & V). exists mem'. split; [auto|split; [auto|split]].
  - intros i Hi. rewrite V. destruct (Nat.leb_spec dst (dst + i)); [|lia]. destruct (Nat.ltb_spec (dst + i) (dst + 4)); [|lia]. cbn [andb].
    replace (dst + i - dst) with i by lia. reflexivity.
  - intros j Hj. rewrite V. destruct (Nat.leb_spec dst j), (Nat.ltb_spec j (dst + 4)); cbn [andb]; auto; lia.
Qed.

Lemma copy256_plain : forall mem src dst, src + 4 <= length mem -> dst + 4 <= length mem -> dst <= src \/ src + 4 <= dst ->
  exists mem', copy256 mem src dst = Ok mem' /\ length mem' = length mem /\
   (forall i, i < 4 -> nth (dst + i) mem' 0%N = nth (src + i) mem 0%N) /\
   (forall j, j < dst \/ dst + 4 <= j -> nth j mem' 0%N = nth j mem 0%N).
Proof.
  intros mem src dst Hs Hd Ho. destruct (copy256_exact mem src dst Hs Hd) as (mem' & E & L & V & W). exists mem'. split; [auto|split; [auto|split; [|auto]]].
  intros i Hi. rewrite V by auto. f_equal. f_equal. apply Nat.mod_small. destruct (Nat.ltb_spec src dst); lia.
Qed.

Lemma copy256_avx2_exact : forall mem src dst, src + 4 <= length mem -> dst + 4 <= length mem -> src mod 4 = 0 -> dst mod 4 = 0 ->
  exists mem', copy256_avx2 mem src dst = Ok mem' /\ length mem' = length mem /\
   (forall i, i < 4 -> nth (dst + i) mem' 0%N = nth (src + i) mem 0%N) /\
   (forall j, j < dst \/ dst + 4 <= j -> nth j mem' 0%N = nth j mem 0%N).
Proof.
  intros mem src dst Hs Hd Es Ed. destruct (copy256_avx2_val mem src dst Hs Hd Es Ed) as (mem' & E & L & V). exists mem'. split; [auto|split; [auto|split]].
  - intros i Hi. rewrite V. destruct (Nat.leb_spec dst (dst + i)); [|lia]. destruct (Nat.ltb_spec (dst + i) (dst + 4)); [|lia]. cbn [andb].
    replace (dst + i - dst) with i by lia. rewrite Nat.mod_small by auto. reflexivity.
  - intros j Hj. rewrite V. destruct (Nat.leb_spec dst j), (Nat.ltb_spec j (dst + 4)); cbn [andb]; auto; lia.
Qed.

Lemma copy256_avx2_misaligned : forall mem src dst, src mod 4 <> 0 \/ dst mod 4 <> 0 -> copy256_avx2 mem src dst = UB.
Proof.
  intros mem src dst H. unfold copy256_avx2. destruct (Nat.eqb_spec (src mod 4) 0), (Nat.eqb_spec (dst mod 4) 0); cbn [andb negb]; auto. tauto.
Qed.
