(** Proofs about DacShowModel.v *)
From Coq Require Import List NArith ZArith Arith Bool Lia.
From Verif Require Import Base Spec BitUtilModel CalcModel BitVectorModel BitVectorProof SuccinctModel SuccinctProof FitVectorModel FitVectorProof DacModel DacProof DacExact StreamModel SplitSpec Spec31 DacSpaceModel DacSpace DacShowSpec DacShowModel.
Import ListNotations.
Local Open Scope nat_scope.

Lemma int_add_low : forall a z n, a = low32 z -> int_add a n = low32 (z + Z.of_nat n).
Proof.
  intros a z n ->. unfold int_add, low32. set (m := Z.of_nat n). clearbody m.
  assert (E : ((((z + 2 ^ 31) mod 2 ^ 32 - 2 ^ 31 + m) mod 2 ^ 64) mod 2 ^ 32 = (z + m) mod 2 ^ 32)%Z).
  { change (2 ^ 64)%Z with (2 ^ 32 * 2 ^ 32)%Z. rewrite Z.rem_mul_r by lia.
    rewrite Z.mul_comm, Z.mod_add by lia. rewrite Z.mod_mod by lia.
    replace ((z + 2 ^ 31) mod 2 ^ 32 - 2 ^ 31 + m)%Z with ((z + 2 ^ 31) mod 2 ^ 32 + (m - 2 ^ 31))%Z by lia.
    rewrite Z.add_mod_idemp_l by lia. f_equal. lia. }
  rewrite E. set (s := (z + m)%Z). clearbody s. pose proof (Z.mod_pos_bound s (2 ^ 32) ltac:(lia)). pose proof (Z.div_mod s (2 ^ 32) ltac:(lia)).
  pose proof (Z.mod_pos_bound (s + 2 ^ 31) (2 ^ 32) ltac:(lia)). pose proof (Z.div_mod (s + 2 ^ 31) (2 ^ 32) ltac:(lia)).
  change (2 ^ 32)%Z with 4294967296%Z in *. change (2 ^ 31)%Z with 2147483648%Z in *.
  destruct (Z.ltb_spec (s mod 4294967296) 2147483648); nia.
Qed.

Lemma sum_loop : forall A (f : A -> nat) (l : list A) a z, a = low32 z -> forall k b,
  l = skipn k b -> foldM (fun s i => do p <- lget b i; Ok (int_add s (f p))) (seq k (length l)) a = Ok (low32 (z + Z.of_nat (list_sum (map f l)))).
Proof.
  intros A f l. induction l as [|x l IH]; intros a z Ha k b E; cbn [length seq foldM map list_sum fold_right].
  - rewrite Ha. f_equal. f_equal. lia.
  - assert (X : lget b k = Ok x /\ l = skipn (S k) b).
    { clear - E. revert b E. induction k; intros b E; destruct b as [|y b]; try discriminate; cbn [skipn] in *; [injection E as -> ->; split; reflexivity|].
      destruct (IHk b E) as (P & Q). split; auto. }
    destruct X as (X1 & X2). rewrite X1. cbn [bind]. rewrite (IH _ (z + Z.of_nat (f x))%Z (int_add_low _ _ _ Ha) (S k) b X2).
    f_equal. f_equal. fold (list_sum (map f l)). lia.
Qed.

Lemma nat_loop : forall A (f : A -> nat) (l : list A) a k b,
  l = skipn k b -> foldM (fun s i => do p <- lget b i; Ok (s + f p)) (seq k (length l)) a = Ok (a + list_sum (map f l)).
Proof.
  intros A f l. induction l as [|x l IH]; intros a k b E; cbn [length seq foldM map list_sum fold_right].
  - f_equal. lia.
  - assert (X : lget b k = Ok x /\ l = skipn (S k) b).
    { clear - E. revert b E. induction k; intros b E; destruct b as [|y b]; try discriminate; cbn [skipn] in *; [injection E as -> ->; split; reflexivity|].
      destruct (IHk b E) as (P & Q). split; auto. }
    destruct X as (X1 & X2). rewrite X1. cbn [bind]. rewrite (IH _ (S k) b X2). f_equal. fold (list_sum (map f l)). lia.
Qed.

Lemma all_read : forall A (l : list A) k b, l = skipn k b -> mapM (lget b) (seq k (length l)) = Ok l.
Proof.
  intros A l. induction l as [|x l IH]; intros k b E; cbn [length seq mapM]; auto.
  assert (X : lget b k = Ok x /\ l = skipn (S k) b).
  { clear - E. revert b E. induction k; intros b E; destruct b as [|y b]; try discriminate; cbn [skipn] in *; [injection E as -> ->; split; reflexivity|].
    destruct (IHk b E) as (P & Q). split; auto. }
  destruct X as (X1 & X2). rewrite X1. cbn [bind]. now rewrite (IH (S k) b X2).
Qed.

Lemma deep_bytes : forall us Ls ps m l n t, deep_ok us Ls ps m -> length Ls = length us -> length ps = length us ->
  Forall (fun p => sb_tips p = []) ps -> above l t m -> Forall (fun u => 1 <= u) us ->
  (forall k, k < length us -> t + list_sum_nat (firstn k us) < max_bits l) -> N.of_nat (length m) = n -> (us <> [] -> 1 <= n)%N ->
  N.of_nat (list_sum (map fv_size_in_bytes Ls)) = chunk_bytes l t us /\
  N.of_nat (list_sum (map (sb_size_in_bytes false) ps)) = match us with [] => 0 | _ :: _ => 24 + 8 * index_words n + flag_bytes l t us end%N.
Proof.
  induction us as [|u us IH]; intros Ls ps m l n t D L1 L2 T A P H Lm Pn.
  - destruct Ls, ps; simpl in *; lia.
  - destruct Ls as [|L Ls], ps as [|p ps]; simpl in L1, L2; try lia. cbn [deep_ok] in D. destruct D as (O & (_ & Z & W & _) & Wu & D).
    inversion T as [|? ? T1 T2]; subst. inversion P as [|? ? P1 P2]; subst.
    assert (Hm : m <> []) by (intros ->; specialize (Pn ltac:(discriminate)); cbn [length] in Pn; lia).
    pose proof (path_index p _ O T1 ltac:(destruct m; [congruence|discriminate])) as I. rewrite map_length in I.
    rewrite map_length in W, Z. pose proof (above_len _ _ _ A) as F. pose proof (fws_words (length (filter pos m)) (fv_width L) P1) as V. rewrite <- W, F in V.
    destruct (IH Ls ps _ l (wider l t) (t + fv_width L) D ltac:(lia) ltac:(lia) T2 (above_next _ _ _ _ A) P2) as (E & C).
    { intros k Hk. specialize (H (S k) ltac:(simpl; lia)). cbn [firstn list_sum_nat fold_right] in H. fold (list_sum_nat (firstn k us)) in H. lia. }
    { now rewrite map_length. }
    { intros Hu. apply wider_pos. specialize (H 0 ltac:(simpl; lia)). simpl in H. lia. }
    cbn [map list_sum fold_right]. fold (list_sum (map fv_size_in_bytes Ls)). fold (list_sum (map (sb_size_in_bytes false) ps)). rewrite !Nat2N.inj_add, E, C.
    assert (SL : N.of_nat (fv_size_in_bytes L) = (24 + 8 * words_for (wider l t * N.of_nat (fv_width L)))%N) by (unfold fv_size_in_bytes, size_vec; lia).
    assert (SP : N.of_nat (sb_size_in_bytes false p) = (24 + 8 * index_words (N.of_nat (length m)))%N).
    { unfold sb_size_in_bytes, bv_size_in_bytes, size_vec. unfold path_words in I. rewrite T1 in I. cbn [length] in I. lia. }
    rewrite SL, SP. cbn [chunk_bytes flag_bytes]. split; [reflexivity|]. destruct us; lia.
Qed.

Lemma show_build : forall units l, l <> [] -> units <> [] -> Forall (fun v => (v < 2 ^ 63)%N) l -> Forall (fun u => 1 <= u <= 63) units -> starts_below units (max_bits l) ->
  exists d, dac_build units l = Ok d /\
    (length units = 1 -> dac_show d = UB) /\
    (2 <= length units -> exists bytes, dac_show d = Ok (Report (length l) bytes (bytes * 8, length l) (low32 (Z.of_N (flag_bytes l 0 units))) (low32 (Z.of_N (chunk_bytes l 0 units))) units) /\
       N.of_nat bytes = (16 + 8 * N.of_nat (length units) + chunk_bytes l 0 units + flag_bytes l 0 units)%N).
Proof.
  intros units l Hl Hn F Fu Hp. destruct (build_ok units l F Hn Fu Hp) as (d & E & (En & Eu & O)). exists d. split; auto.
  pose proof (build_tips_none _ _ _ E) as T. destruct units as [|u0 us]; [congruence|]. destruct (dac_layers d) as [|L0 Ls] eqn:EL; [destruct O|].
  destruct O as ((_ & Z & W & _) & Wu & D & L1 & L2). rewrite map_length in Z, W. inversion Fu as [|? ? F0 F1].
  destruct (deep_bytes us Ls (dac_paths d) _ l (N.of_nat (length l)) u0 D L2 L1 T (above_start l u0 ltac:(lia))) as (Ec & Ef).
  - eapply Forall_impl; [|exact F1]. cbn beta. intros; lia.
  - intros k Hk. specialize (Hp (S k) ltac:(simpl; lia)). cbn [firstn list_sum_nat fold_right] in Hp. exact Hp.
  - now rewrite map_length.
  - intros _. rewrite <- wider_0. apply wider_pos. specialize (Hp 0 ltac:(simpl; lia)). simpl in Hp. lia.
  - assert (S0 : N.of_nat (fv_size_in_bytes L0) = (24 + 8 * words_for (wider l 0 * N.of_nat u0))%N).
    { unfold fv_size_in_bytes, size_vec. rewrite W, Wu. pose proof (fws_words (length l) u0 ltac:(lia)) as V. rewrite wider_0. lia. }
    assert (SB : dac_size_in_bytes d = Ok (8 + (8 * length (u0 :: us) + 8) + list_sum (map fv_size_in_bytes (L0 :: Ls)) + list_sum (map (sb_size_in_bytes false) (dac_paths d)))).
    { unfold dac_size_in_bytes. rewrite En, Eu, EL. replace (seq 0 (length (u0 :: us))) with (seq 0 (length (L0 :: Ls))) by (cbn [length]; do 2 f_equal; lia).
      rewrite (nat_loop _ fv_size_in_bytes (L0 :: Ls) _ 0 (L0 :: Ls) eq_refl). cbn [bind].
      replace (length (u0 :: us) - 1) with (length (dac_paths d)) by (cbn [length]; lia). rewrite (nat_loop _ (sb_size_in_bytes false) (dac_paths d) _ 0 _ eq_refl). reflexivity. }
    assert (SZ : dac_size d = Ok (length l)) by (unfold dac_size; rewrite EL; change (lget (L0 :: Ls) 0) with (Ok L0); cbn [bind]; now rewrite Z).
    unfold dac_show. rewrite En, SZ. cbn [bind]. rewrite SB. cbn [bind]. split.
    + intros H1. cbn [length] in H1. destruct (dac_paths d); [|cbn [length] in L1; lia]. replace (length (u0 :: us)) with 1 by (cbn [length]; lia). reflexivity.
    + intros H2. cbn [length] in H2. replace (Nat.max 1 (length (u0 :: us) - 1)) with (length (dac_paths d)) by (cbn [length]; lia).
      rewrite (sum_loop _ (sb_size_in_bytes false) (dac_paths d) 0%Z 0%Z eq_refl 0 _ eq_refl). cbn [bind]. rewrite EL.
      pose proof (sum_loop _ fv_size_in_bytes (L0 :: Ls) 0%Z 0%Z eq_refl 0 _ eq_refl) as SF.
      replace (length (L0 :: Ls)) with (length (u0 :: us)) in SF by (cbn [length]; lia). rewrite SF. cbn [bind]. rewrite Eu, (all_read _ (u0 :: us) 0 _ eq_refl). cbn [bind].
      assert (C : N.of_nat (list_sum (map fv_size_in_bytes (L0 :: Ls))) = chunk_bytes l 0 (u0 :: us)).
      { cbn [map list_sum fold_right chunk_bytes]. fold (list_sum (map fv_size_in_bytes Ls)). rewrite Nat2N.inj_add, Ec, S0. reflexivity. }
      assert (G : N.of_nat (list_sum (map (sb_size_in_bytes false) (dac_paths d))) = flag_bytes l 0 (u0 :: us)).
      { rewrite Ef. cbn [flag_bytes]. rewrite wider_0. destruct us; [cbn [length] in H2; lia|]. reflexivity. }
      eexists. split.
      * repeat f_equal; rewrite Z.add_0_l; [rewrite <- G|rewrite <- C]; now rewrite nat_N_Z.
      * rewrite <- C, <- G. lia.
Qed.

Lemma show_all : forall units l d, l <> [] -> units <> [] -> dac_of_list l units = Ok d ->
    (length units = 1 -> dac_show d = UB) /\
    (2 <= length units -> exists bytes, dac_show d = Ok (Report (length l) bytes (bytes * 8, length l) (low32 (Z.of_N (flag_bytes l 0 units))) (low32 (Z.of_N (chunk_bytes l 0 units))) units) /\
       N.of_nat bytes = (16 + 8 * N.of_nat (length units) + chunk_bytes l 0 units + flag_bytes l 0 units)%N).
Proof.
  intros units l d Hl Hu E. destruct (proj1 (dac_defined units l Hl Hu) (ex_intro _ d E)) as (F & Fu & Hr).
  destruct (show_build units l Hl Hu F Fu (removelast_starts _ _ Hu Hr)) as (d' & E' & A).
  unfold dac_of_list, dac_of_list_gen in E. destruct l; [congruence|]. destruct units; [congruence|]. cbn [bind] in E. rewrite E in E'. injection E' as <-. exact A.
Qed.

Lemma low32_small : forall z, (0 <= z < 2 ^ 31)%Z -> low32 z = z.
Proof. intros z H. unfold low32. rewrite Z.mod_small by lia. lia. Qed.

Lemma show_consistent : forall units l d r, l <> [] -> units <> [] -> dac_of_list l units = Ok d -> dac_show d = Ok r -> rp_bytes r < 2 ^ 31 ->
  (rp_bits r + rp_flow r + 16 + 8 * Z.of_nat (length units) = Z.of_nat (rp_bytes r))%Z.
Proof.
  intros units l d r Hl Hu E R B. destruct (show_all units l d Hl Hu E) as (A1 & A2). assert (L : length units = 0 \/ length units = 1 \/ 2 <= length units) by lia.
  destruct L as [L|[L|L]]; [destruct units; [congruence|discriminate]|rewrite (A1 L) in R; discriminate|]. destruct (A2 L) as (bytes & Es & Eb). rewrite R in Es.
  apply (f_equal (fun x => match x with Ok r => r | _ => r end)) in Es. subst r. cbn [rp_bytes rp_bits rp_flow] in *.
  apply Nat2Z.inj_lt in B. rewrite Nat2Z.inj_pow in B. change (Z.of_nat 2) with 2%Z in B. change (Z.of_nat 31) with 31%Z in B. rewrite !low32_small by lia. lia.
Qed.
