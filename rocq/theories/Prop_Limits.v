(** C126: what the int counters and the double quotient limit. *)
From Coq Require Import List NArith ZArith Arith Bool Lia.
From Verif Require Import Base Spec Spec26 FitVectorModel WaveletModel DacModel MultiBitModel SignedModel LimitModel MultiBitProof LimitProof.
Import ListNotations.
Local Open Scope nat_scope.

(** WaveletTree: undefined from 2^31 elements on, otherwise the tree of C26, C27 and C73 (C120 for signed types) *)
Theorem C126_wavelet : forall l, wt_make_int l = if (N.of_nat (length l) <? 2 ^ 31)%N then wt_make l else UB.
Proof. exact wavelet_limit. Qed.
Print Assumptions C126_wavelet.
Theorem C126_wavelet_signed : forall l, wt_make_signed_int l = if (N.of_nat (length l) <? 2 ^ 31)%N then wt_make_signed l else UB.
Proof. exact wavelet_limit_signed. Qed.
Print Assumptions C126_wavelet_signed.
Example C126_wavelet_ex : (do t <- wt_make_int [3; 0; 6; 3]%N; mapM (wt_get t) (seq 0 4)) = Ok [3; 0; 6; 3]%N /\
  (do t <- wt_make_signed_int [3; -3; 4]%Z; mapM (wt_get t) (seq 0 3)) = Ok [3; 5; 4]%N /\ wt_make_int (repeat 7%N (N.to_nat (2 ^ 31))) = UB.
Proof.
  split; [vm_compute; reflexivity|]. split; [vm_compute; reflexivity|]. rewrite C126_wavelet, repeat_length, N2Nat.id, N.ltb_irrefl. reflexivity.
Qed.

(** cummulative_frequency_list: every count passes through an int, which is harmless exactly for counts below 2^31 *)
Theorem C126_cumulative : forall l, Forall (fun v => (v < 2 ^ 63)%N) l -> exists cf, cummulative_frequency_list_int l = Ok cf /\ length cf = max_bits l /\
  forall k, k < max_bits l -> nth k cf 0%N = through_int (N.of_nat (longer_than k l)).
Proof. exact cumulative_int. Qed.
Print Assumptions C126_cumulative.
Theorem C126_through_int : forall c, (c < 2 ^ 63)%N -> (through_int c = c <-> (c < 2 ^ 31)%N).
Proof. exact through_small. Qed.
Print Assumptions C126_through_int.
Example C126_cumulative_ex : Forall (fun v => (v < 2 ^ 63)%N) [5; 1; 0; 4; 30]%N /\ cummulative_frequency_list_int [5; 1; 0; 4; 30]%N = Ok [5; 3; 3; 1; 1]%N /\
  map through_int [2 ^ 31 - 1; 2 ^ 31; 2 ^ 32 - 1; 2 ^ 32 + 5]%N = [2147483647; 18446744071562067968; 18446744073709551615; 5]%N.
Proof. split; [repeat constructor|]. split; vm_compute; reflexivity. Qed.

(** DacVector with given widths: throws exactly if the count at the start of a level comes out negative, otherwise the vector of C106 *)
Theorem C126_dac : forall l widths, l <> [] -> widths <> [] -> Forall (fun v => (v < 2 ^ 63)%N) l -> Forall (fun u => 1 <= u <= 63) widths ->
  (negative_level widths l -> dac_of_widths_int l widths = Throw) /\ (~ negative_level widths l -> dac_of_widths_int l widths = dac_of_list l widths).
Proof. exact dac_limit. Qed.
Print Assumptions C126_dac.
Theorem C126_dac_few : forall l widths, (N.of_nat (length l) < 2 ^ 31)%N -> ~ negative_level widths l.
Proof. exact dac_limit_few. Qed.
Print Assumptions C126_dac_few.
Theorem C126_dac_many : forall l widths, widths <> [] -> (2 ^ 31 <= N.of_nat (length l) < 2 ^ 32)%N -> negative_level widths l.
Proof. exact dac_limit_many. Qed.
Print Assumptions C126_dac_many.
Example C126_dac_ex : (do d <- dac_of_widths_int [9; 0; 200]%N [3; 6]; mapM (dac_at d) (seq 0 3)) = Ok [9; 0; 200]%N /\
  (forall n, N.of_nat n = (2 ^ 31)%N -> dac_of_widths_int (9%N :: repeat 9%N n) [3; 6] = Throw).
Proof.
  split; [vm_compute; reflexivity|]. intros n Hn.
  refine (proj1 (C126_dac (9%N :: repeat 9%N n) [3; 6] _ _ _ _) _); [discriminate|discriminate| | |].
  - constructor; [reflexivity|]. apply Forall_forall. intros x I. apply repeat_spec in I. subst x. reflexivity.
  - repeat constructor.
  - apply C126_dac_many; [discriminate|]. cbn [length]. rewrite repeat_length, Nat2N.inj_succ, Hn. split; [discriminate|reflexivity].
Qed.

(** MultiBitVector::build: undefined exactly if there is an element other than 0 and the words of whole tips are more than 2^31 *)
Theorem C126_multibit : forall U v r, U = 1 \/ U = 2 \/ U = 3 -> (N.of_nat (length (mb_bits v)) < 2 ^ 53)%N -> is_rounded_up (length (mb_bits v)) (4 * U) r ->
  ((exists i x, mb_get U v i = Ok x /\ x <> 0%N) -> (2 ^ 31 < N.of_nat r)%N -> mb_build_int U v = UB) /\
  (~ (exists i x, mb_get U v i = Ok x /\ x <> 0%N) \/ (N.of_nat r <= 2 ^ 31)%N -> mb_build_int U v = mb_build U v).
Proof. exact multibit_limit. Qed.
Print Assumptions C126_multibit.
(** the number of tips, computed in double *)
Theorem C126_double : forall n b, (1 <= n < 2 ^ 53)%N -> (1 <= b < 2 ^ 53)%N -> double_ceil n b = ((n + b - 1) / b)%N.
Proof. exact double_exact. Qed.
Print Assumptions C126_double.
Example C126_multibit_ex : mb_build_int 3 (MB [27; 5; 1]%N (repeat [] 8)) = mb_build 3 (MB [27; 5; 1]%N (repeat [] 8)) /\
  (do v <- mb_build_int 3 (MB [27; 5; 1]%N (repeat [] 8)); mb_rank 3 v 1) = Ok 1%N /\
  (forall n, N.of_nat n = (2 ^ 31)%N -> mb_build_int 3 (MB (1%N :: repeat 0%N n) (repeat [] 8)) = UB) /\
  double_ceil (12 * 2 ^ 49 + 1) 12 = (2 ^ 49 + 1)%N.
Proof.
  split; [vm_compute; reflexivity|]. split; [vm_compute; reflexivity|]. split.
  - intros n Hn. assert (R : is_rounded_up (length (mb_bits (MB (1%N :: repeat 0%N n) (repeat [] 8)))) (4 * 3) (((n + 12) / 12) * 12)).
    { cbn [mb_bits length]. rewrite repeat_length. split; [apply Nat.mod_mul; discriminate|]. change (4 * 3) with 12. lia. }
    assert (B : (N.of_nat (length (mb_bits (MB (1%N :: repeat 0%N n) (repeat [] 8)))) < 2 ^ 53)%N) by (cbn [mb_bits length]; rewrite repeat_length, Nat2N.inj_succ, Hn; reflexivity).
    refine (proj1 (C126_multibit 3 _ _ (or_intror (or_intror eq_refl)) B R) _ _).
    + exists 0, 1%N. split; [reflexivity|discriminate].
    + lia.
  - vm_compute; reflexivity.
Qed.
