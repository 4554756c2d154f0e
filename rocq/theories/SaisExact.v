(** SA-IS: the exact order of the positions in the result. *)
From Coq Require Import List NArith ZArith Arith Bool Lia Permutation Sorted.
From Verif Require Import Base Spec5 Spec6 Spec12 FitVectorModel FitVectorProof SuffixModel LcpProof SaisRows SaisPut SaisInduce SaisKey SaisOrder SaisName SaisTotal SaisSort SaisPublic SaisCtor SaisDec.
Import ListNotations.
Local Open Scope nat_scope.

(** ** The reduced string is determined *)
Lemma rank_unique : forall n (f g : nat -> N), (forall a b, a < n -> b < n -> (f a < f b)%N <-> (g a < g b)%N) -> (forall a, a < n -> (0 < f a)%N) -> (forall a, a < n -> (0 < g a)%N) ->
  (forall a v, a < n -> (0 < v <= f a)%N -> exists b, b < n /\ f b = v) -> (forall a v, a < n -> (0 < v <= g a)%N -> exists b, b < n /\ g b = v) -> forall a, a < n -> f a = g a.
Proof.
  intros n f g O Pf Pg Sf Sg. assert (G : forall k a, a < n -> (N.to_nat (f a) <= k) -> f a = g a); [|intros a A; apply (G (N.to_nat (f a))); auto].
  induction k as [|k IH]; intros a A K; [specialize (Pf a A); lia|]. destruct (N.lt_trichotomy (f a) (g a)) as [L|[L|L]]; auto; exfalso.
  - destruct (Sg a (f a) A) as (b & B & E); [specialize (Pf a A); lia|]. assert (X : (f b < f a)%N) by (apply O; auto; lia). rewrite <- (IH b B ltac:(lia)) in E. lia.
  - destruct (Sf a (g a) A) as (b & B & E); [specialize (Pg a A); lia|]. assert (X : (f b < f a)%N) by lia. rewrite (IH b B ltac:(lia)) in E. apply O in X; auto. lia.
Qed.
Lemma reduces_unique : forall s r r', reduces s r -> reduces s r' -> r = r'.
Proof.
  intros s r r' (vs & SV & IV & L & O & D) (vs' & SV' & IV' & L' & O' & D').
  assert (E : vs' = vs) by (rewrite (valleys_list s vs SV IV), (valleys_list s vs' SV' IV'); reflexivity). subst vs'. clear SV' IV'.
  assert (X : forall r, (forall v, (exists x, In x r /\ (v <= x)%N) -> (0 < v)%N <-> In v r) -> (forall a, a < length r -> (0 < nth a r 0)%N) /\ forall a v, a < length r -> (0 < v <= nth a r 0)%N -> exists b, b < length r /\ nth b r 0%N = v).
  { clear. intros r D. split.
    - intros a A. apply D; [exists (nth a r 0%N); split; [apply nth_In; auto|lia]|apply nth_In; auto].
    - intros a v A [V1 V2]. apply In_nth. apply D; auto. exists (nth a r 0%N). split; [apply nth_In; auto|auto]. }
  destruct (X r D) as [P1 S1], (X r' D') as [P2 S2]. apply nth_ext with (d := 0%N) (d' := 0%N); [congruence|]. rewrite L in *. rewrite L' in *.
  apply (rank_unique (length vs) (fun a => nth a r 0%N) (fun a => nth a r' 0%N)); auto. intros a b A B. rewrite O, O' by auto. tauto.
Qed.

(** ** Places in a sorted list *)
Lemma index_order : forall (P : nat -> nat -> Prop) (f : nat -> nat) W, (forall a, ~ P a a) -> (forall a b, P a b -> ~ P b a) -> (forall a b, In a W -> In b W -> f a = f b -> a = b) -> StronglySorted P W ->
  forall a b, In a W -> In b W -> index (f a) (map f W) < index (f b) (map f W) <-> P a b.
Proof.
  intros P f W IR AS INJ SS. induction SS as [|x l SS IH F]; intros a b A B; [destruct A|]. rewrite Forall_forall in F. cbn [map index].
  assert (IH' : forall a b, In a l -> In b l -> index (f a) (map f l) < index (f b) (map f l) <-> P a b) by (apply IH; intros; apply INJ; auto; right; auto).
  assert (Fx : forall y, In y (x :: l) -> f y = f x -> y = x) by (intros y Y E; apply INJ; auto; left; auto).
  destruct (Nat.eqb_spec (f a) (f x)) as [Ea|Ea], (Nat.eqb_spec (f b) (f x)) as [Eb|Eb].
  - rewrite (Fx a A Ea), (Fx b B Eb). split; [lia|intros X; destruct (IR _ X)].
  - rewrite (Fx a A Ea). destruct B as [->|B]; [congruence|]. split; [intros _; auto|lia].
  - rewrite (Fx b B Eb). destruct A as [->|A]; [congruence|]. split; [lia|]. intros X. destruct (AS _ _ X (F a A)).
  - destruct A as [->|A]; [congruence|]. destruct B as [->|B]; [congruence|]. rewrite <- IH' by auto. lia.
Qed.
Lemma ss_place : forall (P : nat -> nat -> Prop) l, (forall a, ~ P a a) -> (forall a b, P a b -> ~ P b a) -> StronglySorted P l -> forall i j, i < length l -> j < length l -> P (nth i l 0) (nth j l 0) <-> i < j.
Proof.
  intros P l IR AS SS i j LI J. split; [|intros IJ; apply (ss_nth _ _ _ 0 SS); auto]. intros H. destruct (lt_eq_lt_dec i j) as [[X| -> ]|X]; auto; exfalso; [exact (IR _ H)|]. exact (AS _ _ H (ss_nth _ _ _ 0 SS j i X LI)).
Qed.

Section Again.
Variables (str : list N) (maxv : nat).
Hypothesis HV : valid str maxv.
Let n := length str.
Let ts := classified str.
Let lms := find_lms ts.
Lemma lms_inj : forall a b, a < length lms -> b < length lms -> nth a lms 0 = nth b lms 0 -> a = b.
Proof. pose proof (nodup_lms str) as ND. fold ts in ND. fold lms in ND. rewrite (NoDup_nth _ 0) in ND. intros. apply ND; auto. Qed.
(** the second pass, with the order it uses *)
Lemma sais_again_by : forall fuel p q, lmsb str p = true -> lmsb str q = true -> ekey str true p = ekey str true q -> p <> q ->
  exists U0 sub k last, Permutation U0 (seq 0 n) /\ Names str N.of_nat U0 sub k last /\ let red := map N.of_nat (map (nmf sub) lms) in valid red k /\ length red = length lms /\ length lms < n /\
    forall W, sais fuel red k = Ok (map Some W) -> Permutation W (seq 0 (length lms)) ->
    let rk := fun p => N.of_nat (index p (map (fun i => nth i lms 0) W)) in
    exists U, sais (S fuel) str maxv = Ok (map Some U) /\ Permutation U (seq 0 n) /\ StronglySorted (fun p q => lex_lt (key str rk true p) (key str rk true q)) U.
Proof.
  intros fuel p q Lp Lq EE NE. destruct (first_pass str maxv HV) as (U & sub & k & last & E1 & P & SS & E2 & NM & E3). exists U, sub, k, last. split; auto. split; auto. cbn zeta. fold ts in E3. fold lms in E3. set (red := map N.of_nat (map (nmf sub) lms)).
  assert (SH : length lms <> S k). { intros Z. apply NE. exact (proj1 (shared_zero str maxv HV _ _ _ _ _ P NM) Z p q Lp Lq EE). }
  destruct (names_few str maxv HV _ _ _ _ _ P NM) as [_ FEW]. fold ts in FEW. fold lms in FEW. assert (Vr : valid red k) by (apply (reduced_valid str maxv HV _ _ _ _ _ P NM); fold ts; fold lms; lia).
  split; auto. split; [unfold red; rewrite !map_length; auto|]. split; [apply (lms_short str maxv HV)|]. intros W EW PW.
  assert (UN : sais (S fuel) str maxv = induce maxv str ts lms (rev W)).
  { cbn [sais]. fold ts. fold lms. fold ts in E1. fold lms in E1. rewrite E1. cbn [bind]. fold n. fold ts in E2. fold n in E2. rewrite E2. cbn [bind]. rewrite E3. cbn [bind]. destruct (Nat.eqb_spec (length lms) (S k)); [contradiction|]. fold red. rewrite EW. cbn [bind]. rewrite mapM_somes. reflexivity. }
  assert (NW : NoDup W) by (apply (Permutation_NoDup (Permutation_sym PW)), seq_NoDup).
  assert (IW : forall i, In i (rev W) <-> i < length lms). { intros i. rewrite <- in_rev. split; intros X; [apply (Permutation_in _ PW) in X; apply in_seq in X; lia|apply (Permutation_in _ (Permutation_sym PW)); apply in_seq; lia]. }
  assert (IW' : forall i, In i W -> i < length lms) by (intros i X; apply IW; rewrite <- in_rev; auto).
  assert (NR : NoDup (map (fun i => nth i lms 0) W)).
  { revert NW IW'. clear -HV. induction 1 as [|x l Nx Nl IH]; intros B; [constructor|]. cbn [map]. constructor; [|apply IH; intros; apply B; right; auto].
    intros X. apply in_map_iff in X. destruct X as (y & Y1 & Y2). apply lms_inj in Y1; [congruence|apply B; right; auto|apply B; left; auto]. }
  destruct (induce_any str maxv HV (fun p => N.of_nat (index p (map (fun i => nth i lms 0) W))) (rev W)) as (U' & E' & P' & SS').
  - apply NoDup_rev; auto. - exact IW. - rewrite rev_involutive. fold ts. fold lms. apply index_sorted. exact NR.
  - exists U'. rewrite UN. auto.
Qed.
(** the number of the next valley *)
Lemma upto_next : forall s p d a, (forall i, valley s i <-> lmsb str i = true) -> valley s (p + d) -> 0 < d -> (forall e, 0 < e < d -> ~ valley s (p + e)) -> valleys_upto s p a -> a < length lms /\ nth a lms 0 = p + d.
Proof.
  intros s p d a VL V D NV (vs & SV & IV & <-). pose proof (lms_sorted str maxv HV) as SS. fold ts in SS. fold lms in SS. assert (IN : forall i, In i lms <-> valley s i) by (intros; rewrite VL; apply (in_lms str maxv HV)).
  apply IN in V. destruct (In_nth _ _ 0 V) as (c & C & EC).
  assert (SC : StronglySorted lt (firstn c lms)). { pose proof SS as S2. rewrite <- (firstn_skipn c lms) in S2. apply ss_app_inv in S2. tauto. }
  assert (E : vs = firstn c lms); [|rewrite E, firstn_length, Nat.min_l by lia; auto]. apply sorted_unique; auto. intros i. rewrite IV, <- IN. split.
  - intros [I1 I2]. destruct (In_nth _ _ 0 I1) as (b & B & EB). assert (BC : b < c). { destruct (lt_eq_lt_dec b c) as [[X|X]|X]; auto; [subst; lia|]. pose proof (ss_nth _ _ _ 0 SS c b X B). lia. }
    rewrite <- EB. replace (nth b lms 0) with (nth b (firstn c lms) 0). { apply nth_In. rewrite firstn_length. lia. } rewrite <- (firstn_skipn c lms) at 2. rewrite app_nth1; auto. rewrite firstn_length. lia.
  - intros H. assert (I1 : In i lms) by (rewrite <- (firstn_skipn c lms); apply in_or_app; auto). split; auto.
    assert (LT : i < p + d). { destruct (In_nth _ _ 0 H) as (b & B & <-). rewrite firstn_length in B. replace (nth b (firstn c lms) 0) with (nth b lms 0). { rewrite <- EC. apply (ss_nth _ _ _ 0 SS); lia. } rewrite <- (firstn_skipn c lms) at 1. rewrite app_nth1; auto. rewrite firstn_length. lia. }
    destruct (le_lt_dec i p); auto. exfalso. apply (NV (i - p)); [lia|]. replace (p + (i - p)) with i by lia. apply IN. auto.
Qed.
End Again.
Lemma upto_exists : forall s p, exists a, valleys_upto s p a.
Proof.
  intros s p. exists (length (filter (valleyb s) (seq 0 (S p)))), (filter (valleyb s) (seq 0 (S p))). split; [|split; auto].
  - apply ss_filter. generalize 0. generalize (S p). clear. induction n as [|k IH]; intros a; [constructor|]. cbn [seq]. constructor; auto. apply Forall_forall. intros x X. apply in_seq in X. lia.
  - intros i. rewrite filter_In, in_seq, valleyb_spec. split; intros [H1 H2]; split; auto; lia.
Qed.
Lemma upto_unique : forall s p a b, valleys_upto s p a -> valleys_upto s p b -> a = b.
Proof.
  intros s p a b (u & SU & IU & <-) (v & SV & IV & <-). f_equal. apply sorted_unique; auto. intros i. rewrite IU, IV. tauto.
Qed.

Section Order.
Variables (s : list N) (maxv : nat).
Hypothesis PS : positive s.
Let str := s ++ [0%N].
Hypothesis HV : valid str maxv.
Let nS : length str = S (length s).
Proof. unfold str. rewrite app_length. cbn [length]. lia. Qed.
(** different stretches: by the suffixes, whatever the order of the valleys *)
Lemma key_other : forall rk p q, p <= length s -> q <= length s -> ~ same_stretch s p q -> lex_lt (key str rk true p) (key str rk true q) <-> lex_lt (skipn p s) (skipn q s).
Proof.
  intros rk p q P Q NS. destruct (Nat.eq_dec p q) as [<-|PQ]; [split; intros H; destruct (lex_lt_irrefl _ H)|].
  assert (EK : ekey str true p <> ekey str true q) by (intros E; apply NS; apply (key_stretch s maxv PS HV); auto).
  assert (W : forall x y, x <= length s -> y <= length s -> lex_lt (ekey str true x) (ekey str true y) -> lex_lt (key str rk true x) (key str rk true y) /\ lex_lt (skipn x s) (skipn y s)).
  { intros x y X Y L. split; [apply (key_strong str rk (length str)); auto; lia|]. apply (suf_iff s PS); auto. apply (ekey_suf str maxv HV (length str) true); auto; lia. }
  apply lex_lt_total in EK. destruct EK as [L|L]; apply W in L; auto; destruct L as [L1 L2]; [tauto|]. split; intros H; exfalso; [exact (lex_lt_asym _ _ H L1)|exact (lex_lt_asym _ _ H L2)].
Qed.
(** equal stretches: by the next valleys *)
Lemma key_same : forall rk p q a b, p <> q -> same_stretch s p q -> valleys_upto s p a -> valleys_upto s q b -> let lms := find_lms (classified str) in
  a < length lms /\ b < length lms /\ (lex_lt (key str rk true p) (key str rk true q) <-> (rk (nth a lms 0%nat) < rk (nth b lms 0%nat))%N).
Proof.
  intros rk p q a b PQ SM A B lms. assert (VL : forall i, valley s i <-> lmsb str i = true) by (intros; apply (valley_lms s maxv PS HV)).
  assert (BD : p < length s /\ q < length s). { destruct SM as (d & D & V1 & V2 & _). destruct V1 as [V1 _], V2 as [V2 _]. lia. } destruct BD as [Bp Bq].
  apply (stretch_key s maxv PS HV) in SM; auto. destruct (ekey_next str maxv HV (length str) true p q) as (d & D0 & D1 & D2 & _ & D4 & D5); auto; try discriminate; try lia.
  assert (D : 0 < d) by (destruct d; [discriminate D0; auto|lia]).
  destruct (upto_next str maxv HV s p d a VL) as [LA EA]; auto. { apply VL; auto. } { intros e X V. apply VL in V. destruct (D4 e ltac:(lia) (or_introl V)). lia. }
  destruct (upto_next str maxv HV s q d b VL) as [LB EB]; auto. { apply VL; auto. } { intros e X V. apply VL in V. destruct (D4 e ltac:(lia) (or_intror V)). lia. }
  fold lms in LA, EA, LB, EB. split; auto. split; auto. rewrite EA, EB. apply D5.
Qed.
End Order.

Theorem sais_exact : forall fuel s maxv, s <> [] -> positive s -> valid (s ++ [0%N]) maxv -> length s < fuel ->
  exists U rk, sais fuel (s ++ [0%N]) maxv = Ok (map Some U) /\ Permutation U (seq 0 (S (length s))) /\ StronglySorted (fun p q => lex_lt (key (s ++ [0%N]) rk true p) (key (s ++ [0%N]) rk true q)) U /\
    forall p q, p <= length s -> q <= length s -> lex_lt (key (s ++ [0%N]) rk true p) (key (s ++ [0%N]) rk true q) <-> listed_before s p q.
Proof.
  assert (LS : forall s : list N, length (s ++ [0%N]) = S (length s)) by (intros; rewrite app_length; cbn [length]; lia).
  induction fuel as [|fuel IH]; intros s maxv NE PS HV LF; [lia|]. set (str := s ++ [0%N]) in *. assert (Ln : length str = S (length s)) by apply LS.
  assert (DEC : forall p q, same_stretch s p q \/ ~ same_stretch s p q). { intros p q. rewrite <- stretchb_spec. destruct (stretchb s p q); auto. }
  assert (BD : forall p q, same_stretch s p q -> p < length s /\ q < length s). { intros p q (d & D & V1 & V2 & _). destruct V1 as [V1 _], V2 as [V2 _]. lia. }
  destruct (names_dec str maxv HV) as [DI|(x & y & Lx & Ly & E & XY)].
  - destruct (sais_first str maxv HV fuel DI) as (U & A & B & C). rewrite Ln in B. exists U, N.of_nat. split; auto. split; auto. split; auto. pose proof (proj2 (distinct_iff s maxv PS HV) DI) as DI0. clear DI. rename DI0 into DI.
    intros p q P Q. destruct (DEC p q) as [SM|NS].
    + destruct (Nat.eq_dec p q) as [<-|PQ].
      { split; intros H; [destruct (lex_lt_irrefl _ H)|]. inversion H as [? ? ? L NS|? ? ? _ _ L|? r x y ? ? a b Vx Vy SXY XY]; subst; [contradiction|lia|]. destruct XY. apply DI; auto. }
      destruct (upto_exists s p) as (a & HA). destruct (upto_exists s q) as (b & HB). destruct (key_same s maxv PS HV N.of_nat p q a b PQ SM HA HB) as (LA & LB & K). fold str in K. rewrite K.
      destruct (BD p q SM) as [Bp Bq]. pose proof SM as SM'. apply (stretch_key s maxv PS HV) in SM'; auto. destruct (ekey_next str maxv HV (length str) true p q) as (d & _ & _ & _ & _ & _ & D5); auto; try discriminate; try lia.
      rewrite <- K, D5. split; intros H.
      * apply before_text; auto. lia.
      * inversion H as [? ? ? L NS|? ? ? _ _ L|? r x y ? ? a' b' Vx Vy SXY XY]; subst; [contradiction|lia|]. destruct XY. apply DI; auto.
    + pose proof (key_other s maxv PS HV N.of_nat p q P Q NS) as K. fold str in K. rewrite K. split; intros H; [apply before_stretch; auto|]. inversion H; subst; auto; contradiction.
  - destruct (sais_again_by str maxv HV fuel x y Lx Ly E XY) as (U0 & sub & k & last & P0 & NM & G). cbn zeta in G. destruct G as (V & L & LT & G).
    assert (L2 : 2 <= length (find_lms (classified str))). { pose proof (n2 _ _ V) as X. rewrite L in X. exact X. }
    destruct (reduced_spec s maxv PS HV U0 sub k last P0 NM L2) as (r & ER & RN & RP & RR). fold str in ER. rewrite ER in *. clear ER.
    set (lms := find_lms (classified str)) in *. assert (Lr : length lms = S (length r)) by (rewrite <- L, LS; auto). rewrite Ln in LT.
    destruct (IH r k RN RP V ltac:(lia)) as (W & rk' & A1 & A2 & A3 & A4). rewrite <- Lr in A2. destruct (G W A1 A2) as (U & B1 & B2 & B3). clear G. rewrite Ln in B2.
    eexists. eexists. split; [exact B1|]. split; [exact B2|]. split; [exact B3|]. clear U B1 B2 B3. set (rk := fun p => N.of_nat (index p (map (fun i => nth i lms 0) W))).
    assert (EX : valley s x /\ valley s y /\ same_stretch s x y). { split; [apply (valley_lms s maxv PS HV); auto|]. split; [apply (valley_lms s maxv PS HV); auto|]. apply (key_stretch s maxv PS HV); auto; apply (lms_le s maxv HV); auto. }
    destruct EX as (Vx & Vy & SXY).
    assert (IW : forall a, In a W <-> a <= length r). { intros a. split; intros X; [apply (Permutation_in _ A2) in X; apply in_seq in X; lia|apply (Permutation_in _ (Permutation_sym A2)); apply in_seq; lia]. }
    assert (RK : forall a b, a < length lms -> b < length lms -> (rk (nth a lms 0%nat) < rk (nth b lms 0%nat))%N <-> listed_before r a b).
    { intros a b A B. unfold rk. rewrite <- A4 by lia. rewrite <- (index_order (fun p q => lex_lt (key (r ++ [0%N]) rk' true p) (key (r ++ [0%N]) rk' true q)) (fun i => nth i lms 0) W) by
        (auto using lex_lt_irrefl, lex_lt_asym; try (apply IW; lia); intros c d C D X; apply IW in C, D; apply (lms_inj str) in X; auto; fold lms; lia). lia. }
    assert (ST : forall p q a b, same_stretch s p q -> valleys_upto s p a -> valleys_upto s q b -> listed_before s p q <-> listed_before r a b).
    { intros p q a b SM HA HB. split; intros H; [|apply (before_reduced s r x y p q a b); auto]. inversion H as [? ? ? _ NS|? ? ? DI _ _|? r' x' y' ? ? a' b' _ _ _ _ R' _ HA' HB' H']; subst; [contradiction|destruct XY; apply DI; auto|].
      rewrite (upto_unique _ _ _ _ HA HA'), (upto_unique _ _ _ _ HB HB'), (reduces_unique s r r' RR R'). exact H'. }
    intros p q P Q. destruct (DEC p q) as [SM|NS].
    + destruct (upto_exists s p) as (a & HA). destruct (upto_exists s q) as (b & HB). rewrite (ST p q a b) by auto. destruct (Nat.eq_dec p q) as [<-|PQ].
      * rewrite (upto_unique _ _ _ _ HA HB). split; intros H; [destruct (lex_lt_irrefl _ H)|]. exfalso.
        assert (LB : b < length lms). { destruct SM as (d & D & V1 & _ & NV & _). destruct (upto_next str maxv HV s p d b) as [X _]; auto. - intros i. apply (valley_lms s maxv PS HV). - intros e X. apply NV. lia. }
        apply RK in H; auto. lia.
      * destruct (key_same s maxv PS HV rk p q a b PQ SM HA HB) as (LA & LB & K). fold str in K, LA, LB. fold lms in K, LA, LB. rewrite K. apply RK; auto.
    + fold str. pose proof (key_other s maxv PS HV rk p q P Q NS) as K. fold str in K. rewrite K. split; intros H; [apply before_stretch; auto|]. inversion H; subst; auto; contradiction.
Qed.

Section Ctor.
Variable s : list N.
Hypothesis NE : s <> [].
Hypothesis F : Forall (fun c => (0 < c < 128)%N) s.
Hypothesis B : (N.of_nat (length s) < 2 ^ 31)%N.
Theorem ctor_exact : exists sa lcp l, suffix_array s = Ok (sa, lcp) /\ fv_list sa = Ok (map N.of_nat l) /\ Permutation l (seq 0 (length s)) /\
  forall i j, i < length s -> j < length s -> listed_before s (nth i l 0) (nth j l 0) <-> i < j.
Proof.
  pose proof (val_s s NE F B) as HV. pose proof (pos_s s F B) as PS. pose proof (len_str s B) as LS.
  destruct (sais_exact (S (length s)) s 255 NE PS HV ltac:(lia)) as (U & rk & E & P & SS & O). set (str := s ++ [0%N]) in *.
  assert (H : hd 0 U = length s). { apply (hd_min s B (key str rk true)); auto. intros q Q. apply (key_head str); [rewrite LS; lia|rewrite LS; lia|apply (end_first s NE F B); auto]. }
  destruct (ctor s NE F B U E P H) as (sa & lcp & a & C1 & C2 & C3 & _). exists sa, lcp, (tl U). split; auto. split; [apply (rep_list _ _ _ C3)|]. split; auto.
  intros i j LI LJ. assert (L : length (tl U) = length s) by (rewrite (Permutation_length C2), seq_length; auto).
  assert (X : forall i, i < length s -> nth i (tl U) 0 < length s). { intros t T. assert (Z : In (nth t (tl U) 0) (tl U)) by (apply nth_In; lia). apply (Permutation_in _ C2) in Z. apply in_seq in Z. lia. }
  rewrite <- O by (apply Nat.lt_le_incl, X; auto). apply (ss_place (fun p q => lex_lt (key str rk true p) (key str rk true q))); auto using lex_lt_irrefl, lex_lt_asym; try lia. destruct SS; [constructor|auto].
Qed.
(** sorted exactly when the listing order agrees with the suffixes on equal stretches *)
Theorem ctor_sorted_iff : exists sa lcp l, suffix_array s = Ok (sa, lcp) /\ fv_list sa = Ok (map N.of_nat l) /\
  (sorted_suffixes s l <-> forall p q, same_stretch s p q -> listed_before s p q -> lex_lt (skipn p s) (skipn q s)).
Proof.
  destruct ctor_exact as (sa & lcp & l & A & C & P & O). exists sa, lcp, l. split; auto. split; auto. assert (L : length l = length s) by (rewrite (Permutation_length P), seq_length; auto).
  assert (SU : forall p, p < length s -> exists i, i < length s /\ nth i l 0 = p). { intros p Hp. rewrite <- L. apply In_nth. apply (Permutation_in _ (Permutation_sym P)). apply in_seq. lia. }
  split.
  - intros [_ SS] p q SM LB. assert (BD : p < length s /\ q < length s). { destruct SM as (d & D & V1 & V2 & _). destruct V1 as [V1 _], V2 as [V2 _]. lia. }
    destruct BD as [Bp Bq]. destruct (SU p Bp) as (i & Hi & <-). destruct (SU q Bq) as (j & Hj & <-). apply O in LB; auto. apply SS; lia.
  - intros H. split; auto. intros i j IJ J. rewrite L in J. assert (LB : listed_before s (nth i l 0) (nth j l 0)) by (apply O; lia).
    destruct (stretchb s (nth i l 0) (nth j l 0)) eqn:ST; [apply stretchb_spec in ST; auto|]. inversion LB as [| ? ? ? _ SM|? ? ? ? ? ? ? ? _ _ _ _ _ SM]; subst; auto; apply stretchb_spec in SM; congruence.
Qed.
End Ctor.
