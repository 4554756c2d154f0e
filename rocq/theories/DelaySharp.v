(** Fibonacci words reach the longest delay. *)
From Coq Require Import List NArith ZArith Arith Bool Lia.
From Verif Require Import Base Spec4 PatternModel PatternProof KmpProof PatternCostModel PatternCost Spec33 DelayModel DelayProof.
Import ListNotations.
Local Open Scope nat_scope.

(** a, ab, aba, abaab, ... *)
Fixpoint fword (k : nat) : list N := match k with 0 => [98]%N | S j => match j with 0 => [97]%N | S i => fword j ++ fword i end end.
Lemma fword_SS : forall k, fword (S (S k)) = fword (S k) ++ fword k.
Proof. reflexivity. Qed.
Lemma fword_len : forall k, length (fword k) = fib (S k).
Proof.
  assert (G : forall k, length (fword k) = fib (S k) /\ length (fword (S k)) = fib (S (S k))); [|intros k; apply G].
  induction k as [|k (I1 & I2)]; [cbn; auto|]. split; auto. rewrite fword_SS, app_length, (fib_SS (S k)). lia.
Qed.
Lemma fword_binary : forall k x, In x (fword k) -> x = 97%N \/ x = 98%N.
Proof.
  assert (G : forall k, (forall x, In x (fword k) -> x = 97%N \/ x = 98%N) /\ (forall x, In x (fword (S k)) -> x = 97%N \/ x = 98%N)); [|intros k; apply G].
  induction k as [|k (I1 & I2)]; [split; intros x [<-|[]]; auto|]. split; auto. intros x H. rewrite fword_SS in H. apply in_app_or in H. destruct H; auto.
Qed.
(** two consecutive words commute but for the last two letters *)
Lemma near : forall k, exists u x y, fword (S k) ++ fword k = u ++ [x; y] /\ fword k ++ fword (S k) = u ++ [y; x] /\ x <> y.
Proof.
  induction k as [|k (u & x & y & E1 & E2 & N)]; [exists [], 97%N, 98%N; split; [auto|split; [auto|discriminate]]|].
  exists (fword (S k) ++ u), y, x. rewrite (fword_SS k). split; [|split; auto].
  - rewrite <- app_assoc, E2. now rewrite app_assoc.
  - rewrite E1. now rewrite app_assoc.
Qed.
(** the words without their last two letters, and the last but one *)
Definition stem (k : nat) : nat := length (fword (S (S k))) - 2.
Lemma fib_pos : forall k, 1 <= fib (S k).
Proof. induction k as [|k IH]; [cbn; lia|]. rewrite fib_SS. lia. Qed.
Lemma stem_len : forall k, stem k + 2 = fib (k + 3).
Proof. intros k. unfold stem. rewrite fword_len. replace (k + 3) with (S (S (S k))) by lia. pose proof (fib_pos (S k)). pose proof (fib_pos k). rewrite (fib_SS (S k)). lia. Qed.
Lemma fword_prefix : forall k d j, j < length (fword (S k)) -> nth j (fword (S k + d)) 0%N = nth j (fword (S k)) 0%N.
Proof.
  intros k. induction d as [|d IH]; intros j Hj; [f_equal; f_equal; lia|]. replace (S k + S d) with (S (S (k + d))) by lia. rewrite fword_SS. rewrite app_nth1; [apply IH; auto|].
  rewrite fword_len in *. assert (M : forall a b, a <= b -> fib (S a) <= fib (S b)). { clear. intros a b H. induction H; auto. pose proof (fib_SS m) as E. lia. }
  pose proof (M (S k) (S (k + d)) ltac:(lia)). lia.
Qed.

Section Word.
Variable top : nat.
Let W := fword (S (S top)).
Let K := fun j => nth j W 0%N.
Lemma K_word : forall k j, k <= top -> j < length (fword (S (S k))) -> K j = nth j (fword (S (S k))) 0%N.
Proof. intros k j Hk Hj. unfold K, W. replace (S (S top)) with (S (S k) + (top - k)) by lia. now apply fword_prefix. Qed.
Lemma stem_lt : forall k, k < top -> stem k < stem (S k).
Proof. intros k _. pose proof (stem_len k). pose proof (stem_len (S k)). replace (S k + 3) with (S (S (S (S k)))) in * by lia. replace (k + 3) with (S (S (S k))) in * by lia. rewrite (fib_SS (S (S k))) in *. pose proof (fib_pos (S k)). lia. Qed.
Lemma stem_bord : forall k, k < top -> bord K (stem (S k)) (stem k) /\ K (stem k) <> K (stem (S k)).
Proof.
  intros k Hk. pose proof (stem_lt k Hk). destruct (near k) as (u & x & y & E1 & E2 & N).
  assert (A : fword (S (S k)) = u ++ [x; y]) by (rewrite fword_SS; auto).
  assert (B : fword (S (S (S k))) = (fword (S k) ++ u) ++ [y; x]) by (rewrite (fword_SS (S k)), (fword_SS k), <- !app_assoc, E2; reflexivity).
  assert (La : stem k = length u) by (unfold stem; rewrite A, app_length; cbn; lia).
  assert (Lb : stem (S k) = length (fword (S k) ++ u)) by (unfold stem; rewrite B, (app_length _ [y; x]); cbn [length]; lia).
  assert (Ka : forall j, j < length u + 2 -> K j = nth j (u ++ [x; y]) 0%N) by (intros j Hj; rewrite <- A; apply K_word; [lia|]; rewrite A, app_length; cbn; lia).
  assert (Kb : forall j, j < length (fword (S k) ++ u) + 2 -> K j = nth j ((fword (S k) ++ u) ++ [y; x]) 0%N) by (intros j Hj; rewrite <- B; apply K_word; [lia|]; rewrite B, (app_length _ [y; x]); cbn [length]; lia).
  rewrite La, Lb. split.
  - split; [rewrite app_length; lia|]. intros j Hj. rewrite Ka by lia. rewrite Kb by (rewrite app_length in *; lia). rewrite app_nth1 by auto. rewrite app_length. rewrite app_nth1 by (rewrite app_length; lia). rewrite app_nth2 by lia. f_equal. lia.
  - rewrite Ka by lia. rewrite Kb by lia. rewrite !app_nth2 by lia. rewrite !Nat.sub_diag. exact N.
Qed.

(** the word without its last letter *)
Let m := S (stem top).
Let key := firstn m W.
Lemma key_len : length key = m.
Proof. unfold key. rewrite firstn_length. unfold m, stem. fold W. assert (2 <= length W); [|lia]. unfold W. rewrite fword_len, !fib_SS. pose proof (fib_pos top). destruct top; cbn in *; lia. Qed.
Lemma key_K : forall j, j < m -> nth j key 0%N = K j.
Proof. intros j Hj. unfold key, K. now apply nth_firstn'. Qed.
Lemma K_two : forall j, j < m -> K j = 97%N \/ K j = 98%N.
Proof. intros j Hj. unfold K. apply (fword_binary (S (S top))). apply nth_In. fold W. pose proof key_len as L. unfold key in L. rewrite firstn_length in L. lia. Qed.
Lemma bord_eq : forall a b, a < m -> bord (fun j => nth j key 0%N) a b <-> bord K a b.
Proof. intros a b Ha. unfold bord. split; intros (L & H); (split; [auto|]); intros j Hj; [rewrite <- !key_K by lia|rewrite !key_K by lia]; apply H; auto. Qed.

Lemma long_chain : forall next mem, filled key next (length key) -> strict key next (length key) -> (forall j, j < m -> lget mem j = Ok (K j)) ->
  forall k n fuel a a' r, k <= top -> n < m -> bord K n (stem k) -> K n = K (stem k) -> kmp_back_count fuel mem next 99%N (Z.of_nat n) a = Ok (a', r) -> a + k < a'.
Proof.
  intros next mem F St Hmem. induction k as [|k IH]; intros n fuel a a' r Hk Hn Bn Kn E.
  - assert (G : forall fuel n a, kmp_back_count fuel mem next 99%N n a = Ok (a', r) -> a <= a').
    { clear. induction fuel as [|fuel IH]; intros n a E; cbn [kmp_back_count] in E; destruct (n =? -1)%Z; try (injection E; lia); apply bind_Ok_inv in E; destruct E as (x & _ & E); destruct (_ =? _)%N; try (injection E; lia); [discriminate|].
      apply bind_Ok_inv in E. destruct E as (y & _ & E). apply IH in E. lia. }
    destruct (back_inv key _ _ _ _ _ _ _ _ E) as [->|(f & _ & E1)]; [lia|]. apply G in E1. lia.
  - destruct (stem_bord k ltac:(lia)) as (Bs & Ks). pose proof (stem_lt k ltac:(lia)).
    assert (Bx : bord K n (stem k)) by (apply bord_trans with (stem (S k)); auto).
    assert (Lx : stem (S k) <= n) by apply Bn.
    assert (fuel <> 0). { intros ->. cbn [kmp_back_count] in E. rewrite (proj2 (Z.eqb_neq _ _)) in E by lia. rewrite Nat2Z.id, Hmem in E by auto. cbn [bind] in E. destruct (K_two n Hn) as [Q|Q]; rewrite Q in E; discriminate. }
    destruct fuel as [|fuel]; [congruence|]. cbn [kmp_back_count] in E. rewrite (proj2 (Z.eqb_neq _ _)) in E by lia. rewrite Nat2Z.id, Hmem in E by auto. cbn [bind] in E.
    replace (K n =? 99)%N with false in E by (destruct (K_two n Hn) as [Q|Q]; rewrite Q; reflexivity).
    destruct F as (Ln & G). rewrite key_len in Ln, G. rewrite (lget_nth _ next n 0%Z) in E by lia. cbn [bind] in E. destruct (G n ltac:(lia)) as (G1 & _). destruct (G1 Hn) as (N1 & N2).
    assert (Ge : (Z.of_nat (stem k) <= nth n next 0%Z)%Z).
    { destruct (Z.le_gt_cases (Z.of_nat (stem k)) (nth n next 0%Z)) as [|Lt]; auto. exfalso. specialize (N2 (stem k) ltac:(lia) Lt). rewrite (bord_eq n (stem k) Hn) in N2. specialize (N2 Bx). rewrite !key_K in N2 by lia. congruence. }
    destruct N1 as [N1|(b & Eb & Lb & Bb)]; [lia|]. rewrite Eb in *. apply (bord_eq n b Hn) in Bb.
    assert (Kb : K b <> K n) by (rewrite <- !key_K by lia; apply (St n b); auto; rewrite key_len; lia).
    assert (Kx : K b = K (stem k)) by (destruct (K_two b ltac:(lia)), (K_two n Hn), (K_two (stem k) ltac:(lia)); congruence).
    apply (IH b fuel (S a) a' r) in E; auto; try lia. apply bord_down with n; auto. lia.
Qed.

Lemma delays_prefix : forall mem mm next pre t p, (forall j, j < length pre -> lget mem (p + j) = Ok (nth j pre 0%N)) ->
  kmp_delays mem mm next (pre ++ t) (Z.of_nat p) = do r <- kmp_delays mem mm next t (Z.of_nat (p + length pre)); Ok (repeat 1 (length pre) ++ r).
Proof.
  intros mem mm next. induction pre as [|c pre IH]; intros t p H.
  - cbn [app length repeat]. rewrite Nat.add_0_r. destruct (kmp_delays mem mm next t (Z.of_nat p)); reflexivity.
  - cbn [app kmp_delays kmp_back_count]. rewrite (proj2 (Z.eqb_neq _ _)) by lia. rewrite Nat2Z.id. pose proof (H 0 ltac:(cbn; lia)) as H0. rewrite Nat.add_0_r in H0. rewrite H0. cbn [bind nth]. rewrite N.eqb_refl. cbn [bind snd fst].
    replace (Z.of_nat p + 1)%Z with (Z.of_nat (S p)) by lia. rewrite (IH t (S p)).
    + cbn [length]. replace (S p + length pre) with (p + S (length pre)) by lia. destruct (kmp_delays _ _ _ t _); reflexivity.
    + intros j Hj. specialize (H (S j) ltac:(cbn; lia)). cbn [nth] in H. rewrite <- H. f_equal. lia.
Qed.
Lemma sharp_word : exists ds d, match_kmp_delays [] (firstn (stem top) key ++ [99%N]) key = Ok (ds ++ [d]) /\ top < d.
Proof.
  set (text := firstn (stem top) key ++ [99%N]). assert (Hk : key <> []) by (intros E; pose proof key_len as L; rewrite E in L; unfold m in L; cbn in L; lia).
  assert (Lt : length text = m) by (unfold text; rewrite app_length, firstn_length, key_len; unfold m; cbn; lia).
  pose proof (kmp_strict text key Hk) as E. destruct (kmp_delay [] text key _ Hk (E ltac:(intros i Hi; rewrite key_len in Hi; lia))) as (ds & k1 & D & _). clear E.
  destruct (make_strict key) as (next & En & F & St); [rewrite key_len; unfold m; lia|]. unfold match_kmp_delays in *. rewrite En in *. cbn [bind] in *. rewrite app_nil_r in *.
  assert (P : forall j, j < length (firstn (stem top) key) -> lget key (0 + j) = Ok (nth j (firstn (stem top) key) 0%N)).
  { intros j Hj. rewrite firstn_length, key_len in Hj. rewrite (lget_nth _ key _ 0%N) by (rewrite key_len; lia). f_equal. cbn [plus]. symmetry. apply nth_firstn'. lia. }
  unfold text in *. change 0%Z with (Z.of_nat 0) in *. rewrite (delays_prefix key (length key) next _ [99%N] 0 P) in *. apply bind_Ok_inv in D. destruct D as (r & D & Er). rewrite D. cbn [bind].
  rewrite firstn_length, key_len in D. cbn [kmp_delays] in D. apply bind_Ok_inv in D. destruct D as ((d & p) & Db & D). cbn [bind snd fst] in D. exists (repeat 1 (length (firstn (stem top) key))), d. split; [f_equal; congruence|].
  replace (0 + Nat.min (stem top) m) with (stem top) in Db by (unfold m; lia).
  assert (Hmem : forall j, j < m -> lget key j = Ok (K j)) by (intros j Hj; rewrite (lget_nth _ key j 0%N) by (rewrite key_len; auto); now rewrite key_K).
  assert (Hs : stem top < m) by (unfold m; lia).
  pose proof (long_chain next key F St Hmem top (stem top) _ 0 d p (le_n _) Hs (bord_refl K _) eq_refl Db). lia.
Qed.
Lemma sharp_len : length key + 1 = fib (top + 3).
Proof. rewrite key_len. unfold m. pose proof (stem_len top). lia. Qed.
End Word.

Theorem kmp_delay_sharp : forall d, 1 <= d -> exists key text ds d', length key + 1 = fib (d + 2) /\ length text = length key /\ match_kmp_delays [] text key = Ok ds /\ In d' ds /\ d <= d'.
Proof.
  intros d Hd. destruct (sharp_word (d - 1)) as (ds & d' & E & H). eexists. eexists. eexists. exists d'. split; [|split; [|split; [exact E|split; [apply in_or_app; right; now left|lia]]]].
  - rewrite (sharp_len (d - 1)). f_equal. lia.
  - rewrite app_length, firstn_length, key_len. cbn [length]. lia.
Qed.
