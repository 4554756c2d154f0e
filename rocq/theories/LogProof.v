(** ShowAsBinary. *)
From Coq Require Import List NArith ZArith Ascii Bool Lia.
From Verif Require Import Base Spec17 LogModel.
Import ListNotations.
Local Open Scope Z_scope.

Lemma digit_ok : forall w v i, 0 <= i < promoted w -> sab_digit w v i = Ok (if Z.testbit v i then 1 else 0).
Proof.
  intros w v i H. unfold sab_digit. destruct (Z.ltb_spec i (promoted w)); [|lia]. f_equal. change 1 with (Z.ones 1). rewrite Z.land_ones by lia. rewrite <- Z.bit0_mod. rewrite Z.shiftr_spec by lia. cbn [Z.add].
  destruct (Z.testbit v i); reflexivity.
Qed.
Lemma step_ok : forall w v n r, Z.of_nat n < promoted w -> sab_loop w v n = Ok r ->
  sab_loop w v (S n) = Ok ((if Z.testbit v (Z.of_nat n) then "1"%char else "0"%char) :: (if Z.of_nat n mod 8 =? 0 then [" "%char] else []) ++ r).
Proof. intros w v n r H E. cbn [sab_loop]. rewrite digit_ok by lia. cbn [bind]. rewrite E. cbn [bind]. destruct (Z.testbit v (Z.of_nat n)); reflexivity. Qed.
Lemma mod8 : forall m k, 0 <= k < 8 -> (Z.of_nat (8 * m) + k) mod 8 = k.
Proof. intros m k H. replace (Z.of_nat (8 * m) + k) with (k + Z.of_nat m * 8) by lia. rewrite Z.mod_add by lia. apply Z.mod_small. exact H. Qed.
Lemma loop_bytes : forall w v m, Z.of_nat (8 * m) <= promoted w -> sab_loop w v (8 * m) = Ok (concat (map (fun b => byte_digits v b ++ [" "%char]) (rev (seq 0 m)))).
Proof.
  intros w v. induction m as [|m IH]; intros H; [reflexivity|]. specialize (IH ltac:(lia)). rewrite seq_S, rev_app_distr. cbn [Nat.add rev app map concat].
  replace (8 * S m)%nat with (S (S (S (S (S (S (S (S (8 * m))))))))) by lia.
  set (R := concat (map (fun b => byte_digits v b ++ [" "%char]) (rev (seq 0 m)))) in *. clearbody R.
  assert (Q : forall k, (k < 8)%nat -> Z.of_nat (k + 8 * m) mod 8 = Z.of_nat k) by (intros k Hk; rewrite <- (mod8 m (Z.of_nat k)) by lia; f_equal; lia).
  pose proof (step_ok w v (0 + 8 * m) R ltac:(lia) IH) as E0. rewrite (Q 0%nat) in E0 by lia. cbn [Z.of_nat Z.eqb app] in E0.
  pose proof (step_ok w v (1 + 8 * m) _ ltac:(lia) E0) as E1. rewrite (Q 1%nat) in E1 by lia. cbn [Z.of_nat Z.eqb app Pos.of_succ_nat] in E1.
  pose proof (step_ok w v (2 + 8 * m) _ ltac:(lia) E1) as E2. rewrite (Q 2%nat) in E2 by lia. cbn [Z.of_nat Z.eqb app Pos.of_succ_nat Pos.succ] in E2.
  pose proof (step_ok w v (3 + 8 * m) _ ltac:(lia) E2) as E3. rewrite (Q 3%nat) in E3 by lia. cbn [Z.of_nat Z.eqb app Pos.of_succ_nat Pos.succ] in E3.
  pose proof (step_ok w v (4 + 8 * m) _ ltac:(lia) E3) as E4. rewrite (Q 4%nat) in E4 by lia. cbn [Z.of_nat Z.eqb app Pos.of_succ_nat Pos.succ] in E4.
  pose proof (step_ok w v (5 + 8 * m) _ ltac:(lia) E4) as E5. rewrite (Q 5%nat) in E5 by lia. cbn [Z.of_nat Z.eqb app Pos.of_succ_nat Pos.succ] in E5.
  pose proof (step_ok w v (6 + 8 * m) _ ltac:(lia) E5) as E6. rewrite (Q 6%nat) in E6 by lia. cbn [Z.of_nat Z.eqb app Pos.of_succ_nat Pos.succ] in E6.
  pose proof (step_ok w v (7 + 8 * m) _ ltac:(lia) E6) as E7. rewrite (Q 7%nat) in E7 by lia. cbn [Z.of_nat Z.eqb app Pos.of_succ_nat Pos.succ] in E7.
  change (S (7 + 8 * m)) with (S (S (S (S (S (S (S (S (8 * m))))))))) in E7. rewrite E7. unfold byte_digits. cbn [map app].
  rewrite !(Nat.add_comm (8 * m)). reflexivity.
Qed.
Lemma loop_UB : forall w v n, promoted w < Z.of_nat n -> sab_loop w v n = UB.
Proof.
  intros w v n H. destruct n as [|n]; [unfold promoted in H; destruct (Z.ltb_spec w 32); lia|]. cbn [sab_loop]. unfold sab_digit. destruct (Z.ltb_spec (Z.of_nat n) (promoted w)); [lia|reflexivity].
Qed.
Lemma start_val : forall size, 0 <= size < 2 ^ 64 -> let m := size mod 2 ^ 29 in to_int ((size * 8 mod 2 ^ 64 - 1) mod 2 ^ 64) = if (m =? 0) || (2 ^ 28 <? m) then (if m =? 0 then -1 else 8 * m - 1 - 2 ^ 32) else 8 * m - 1.
Proof.
  intros size H m. unfold to_int.
  assert (E : ((size * 8 mod 2 ^ 64 - 1) mod 2 ^ 64) mod 2 ^ 32 = (8 * m - 1) mod 2 ^ 32).
  { change (2 ^ 64) with (2 ^ 32 * 2 ^ 32). rewrite Z.rem_mul_r by lia. rewrite <- (Z.mod_mod ((size * 8 mod (2 ^ 32 * 2 ^ 32) - 1)) (2 ^ 32)) by lia.
    rewrite Z.add_comm, (Z.mul_comm (2 ^ 32)), Z.add_comm, Z.mod_add by lia. rewrite !Z.mod_mod by lia.
    rewrite Z.rem_mul_r by lia. replace ((size * 8) mod 2 ^ 32 + 2 ^ 32 * ((size * 8 / 2 ^ 32) mod 2 ^ 32) - 1) with ((size * 8) mod 2 ^ 32 - 1 + ((size * 8 / 2 ^ 32) mod 2 ^ 32) * 2 ^ 32) by lia.
    rewrite Z.mod_add by lia. f_equal. f_equal. change (2 ^ 32) with (2 ^ 29 * 8). rewrite Zmult_mod_distr_r. unfold m. lia. }
  rewrite E. assert (M : 0 <= m < 2 ^ 29) by (apply Z.mod_pos_bound; lia). change (2 ^ 29) with 536870912 in M. change (2 ^ 28) with 268435456. change (2 ^ 31) with 2147483648. change (2 ^ 32) with 4294967296.
  destruct (Z.eqb_spec m 0) as [E0|E0]; cbn [orb].
  - rewrite E0. reflexivity.
  - rewrite Z.mod_small by lia. destruct (Z.ltb_spec 268435456 m); destruct (Z.ltb_spec (8 * m - 1) 2147483648); lia.
Qed.
Lemma sab_total : forall w v size, 0 <= size < 2 ^ 64 -> w <= 64 -> let m := size mod 2 ^ 29 in
  show_as_binary w v size = if (m =? 0) || (2 ^ 28 <? m) then Ok [newline] else if 8 * m <=? promoted w then Ok (binary_line v (Z.to_nat m)) else UB.
Proof.
  intros w v size H Hw m. unfold show_as_binary. rewrite (start_val size H). cbv zeta. fold m. assert (M : 0 <= m < 2 ^ 29) by (apply Z.mod_pos_bound; lia).
  destruct (Z.eqb_spec m 0) as [E0|E0]; cbn [orb]. { reflexivity. }
  destruct (Z.ltb_spec (2 ^ 28) m) as [L|L].
  - replace (Z.to_nat (8 * m - 1 - 2 ^ 32 + 1)) with 0%nat by (change (2 ^ 32) with 4294967296; change (2 ^ 29) with 536870912 in M; lia). reflexivity.
  - replace (Z.to_nat (8 * m - 1 + 1)) with (8 * Z.to_nat m)%nat by lia. destruct (Z.leb_spec (8 * m) (promoted w)) as [K|K].
    + rewrite loop_bytes by lia. reflexivity.
    + rewrite loop_UB by lia. reflexivity.
Qed.
Theorem show_exact : forall w v size, w <= 64 -> 0 <= size < 2 ^ 64 -> let m := size mod 2 ^ 29 in
  (m = 0 \/ 2 ^ 28 < m -> show_as_binary w v size = Ok [newline]) /\
  (0 < m <= 2 ^ 28 -> 8 * m <= Z.max 32 w -> show_as_binary w v size = Ok (binary_line v (Z.to_nat m))) /\
  (0 < m <= 2 ^ 28 -> Z.max 32 w < 8 * m -> show_as_binary w v size = UB).
Proof.
  intros w v size Hw H m. rewrite (sab_total w v size H Hw). cbv zeta. fold m. assert (P : promoted w = Z.max 32 w) by (unfold promoted; destruct (Z.ltb_spec w 32); lia). rewrite P.
  split; [|split].
  - intros [E|E]. { rewrite E. reflexivity. } destruct (Z.ltb_spec (2 ^ 28) m); [|lia]. rewrite orb_true_r. reflexivity.
  - intros [L1 L2] K. destruct (Z.eqb_spec m 0); [lia|]. destruct (Z.ltb_spec (2 ^ 28) m); [lia|]. cbn [orb]. destruct (Z.leb_spec (8 * m) (Z.max 32 w)); [reflexivity|lia].
  - intros [L1 L2] K. destruct (Z.eqb_spec m 0); [lia|]. destruct (Z.ltb_spec (2 ^ 28) m); [lia|]. cbn [orb]. destruct (Z.leb_spec (8 * m) (Z.max 32 w)); [lia|reflexivity].
Qed.
(** two values of one type with the same line are equal *)
Lemma digits_bits : forall a b j i, byte_digits a j = byte_digits b j -> (i < 8)%nat -> Z.testbit a (Z.of_nat (8 * j + i)) = Z.testbit b (Z.of_nat (8 * j + i)).
Proof.
  intros a b j i E H. unfold byte_digits in E. cbn [map] in E. injection E as E7 E6 E5 E4 E3 E2 E1 E0.
  assert (K : forall x y : bool, (if x then "1"%char else "0"%char) = (if y then "1"%char else "0"%char) -> x = y) by (intros [] []; congruence).
  do 8 (destruct i as [|i]; [apply K; assumption|]). lia.
Qed.
Lemma line_bytes : forall a b m, binary_line a m = binary_line b m -> forall j, (j < m)%nat -> byte_digits a j = byte_digits b j.
Proof.
  intros a b m H. unfold binary_line in H. apply app_inv_tail in H. revert H. induction m as [|m IH]; intros H j Hj; [lia|].
  rewrite seq_S, rev_app_distr in H. cbn [Nat.add rev app map concat] in H.
  assert (L : forall v, length (byte_digits v m ++ [" "%char]) = 9%nat) by reflexivity.
  assert (SP : forall (x y u v : list ascii), length x = length y -> x ++ u = y ++ v -> x = y /\ u = v).
  { clear. induction x as [|c x IH]; intros [|d y] u v Q E; try discriminate; [auto|]. injection Q as Q. injection E as -> E. destruct (IH y u v Q E). subst. auto. }
  apply SP in H; [|rewrite !L; reflexivity]. destruct H as [H1 H2]. apply app_inv_tail in H1. destruct (Nat.eq_dec j m) as [->|]; [exact H1|]. apply IH; auto. lia.
Qed.
Theorem line_injective : forall n s a b, (0 < n)%nat -> in_type (8 * Z.of_nat n) s a -> in_type (8 * Z.of_nat n) s b -> binary_line a n = binary_line b n -> a = b.
Proof.
  intros n s a b Hn Ha Hb E. pose proof (line_bytes _ _ _ E) as K.
  assert (T : forall i, 0 <= i < 8 * Z.of_nat n -> Z.testbit a i = Z.testbit b i).
  { intros i Hi. set (q := Z.to_nat (i / 8)). set (r := Z.to_nat (i mod 8)). pose proof (Z.div_mod i 8 ltac:(lia)). pose proof (Z.mod_pos_bound i 8 ltac:(lia)). assert (0 <= i / 8 < Z.of_nat n) by (split; [apply Z.div_pos; lia|apply Z.div_lt_upper_bound; lia]).
    replace i with (Z.of_nat (8 * q + r)) by lia. apply digits_bits; [apply K; lia|lia]. }
  assert (M : a mod 2 ^ (8 * Z.of_nat n) = b mod 2 ^ (8 * Z.of_nat n)).
  { apply Z.bits_inj'. intros i Hi. destruct (Z.ltb_spec i (8 * Z.of_nat n)). { rewrite !Z.mod_pow2_bits_low by lia. apply T. lia. } rewrite !Z.mod_pow2_bits_high by lia. reflexivity. }
  set (P := 2 ^ (8 * Z.of_nat n)) in *. assert (PP : 0 < P) by (apply Z.pow_pos_nonneg; lia). unfold in_type in *. destruct s.
  - set (h := 2 ^ (8 * Z.of_nat n - 1)) in *. assert (P = 2 * h) by (unfold P, h; rewrite <- Z.pow_succ_r by lia; f_equal; lia).
    pose proof (Z.div_mod a P ltac:(lia)). pose proof (Z.div_mod b P ltac:(lia)). assert (a - b = P * (a / P - b / P)) by lia. assert (-P < a - b < P) by lia. assert (a / P - b / P = 0) by nia. lia.
  - rewrite !Z.mod_small in M by lia. exact M.
Qed.
Theorem show_default : forall n v, (1 <= n <= 8)%nat -> show_as_binary (8 * Z.of_nat n) v (Z.of_nat n) = Ok (binary_line v n).
Proof.
  intros n v H. assert (M : Z.of_nat n mod 2 ^ 29 = Z.of_nat n) by (apply Z.mod_small; lia). destruct (show_exact (8 * Z.of_nat n) v (Z.of_nat n) ltac:(lia) ltac:(lia)) as (_ & Q & _). cbv zeta in Q. rewrite M, Nat2Z.id in Q. apply Q; lia.
Qed.
