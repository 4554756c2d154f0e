(** The int counters of SuffixArray.hpp: harmless for short strings, fatal for some long ones. *)
From Coq Require Import List NArith ZArith Arith Bool Lia.
From Verif Require Import Base Spec SignedModel FitVectorModel LimitModel SuffixModel SuffixIntModel.
Import ListNotations.
Local Open Scope nat_scope.

(** two computations with the same outcome and related results *)
Definition sim {A B} (R : A -> B -> Prop) (x : res A) (y : res B) : Prop :=
  match x, y with Ok a, Ok b => R a b | UB, UB => True | Throw, Throw => True | Fuel, Fuel => True | _, _ => False end.
Lemma sim_bind : forall A B C D (R : A -> B -> Prop) (Q : C -> D -> Prop) x y f g,
  sim R x y -> (forall a b, R a b -> sim Q (f a) (g b)) -> sim Q (bind x f) (bind y g).
Proof. intros A B C D R Q x y f g H K. destruct x, y; cbn in *; auto; contradiction. Qed.
Lemma sim_refl : forall A (R : A -> A -> Prop) x, (forall a, x = Ok a -> R a a) -> sim R x x.
Proof. intros A R x H. destruct x; cbn; auto. Qed.
Lemma sim_eq : forall A (x y : res A), sim eq x y -> x = y.
Proof. intros A x y H. destruct x, y; cbn in H; try contradiction; congruence. Qed.
Lemma sim_fold : forall A S T (R : S -> T -> Prop) (f : S -> A -> res S) (g : T -> A -> res T) l, (forall s t a, In a l -> R s t -> sim R (f s a) (g t a)) ->
  forall s t, R s t -> sim R (foldM f l s) (foldM g l t).
Proof.
  intros A S T R f g. induction l as [|a l IH]; intros H s t K; cbn [foldM]; [exact K|].
  eapply sim_bind; [apply H; [now left|exact K]|]. intros a0 b0 Q. apply IH; auto. intros. apply H; auto. now right.
Qed.

(** conversions of small values *)
Lemma int_small : forall x, (x < 2 ^ 31)%N -> to_int x = Z.of_N x.
Proof.
  intros x H. unfold to_int. change (2 ^ 31)%N with 2147483648%N in H. cbv zeta. change (2 ^ 32)%Z with 4294967296%Z. change (2 ^ 31)%Z with 2147483648%Z.
  rewrite Z.mod_small by lia. destruct (Z.ltb_spec (Z.of_N x) 2147483648); lia.
Qed.
Lemma word_small : forall x, (0 <= x < 2 ^ 64)%Z -> to_word x = Z.to_N x.
Proof. intros x H. unfold to_word. now rewrite Z.mod_small. Qed.
Lemma s_pos_small : forall i n, (N.of_nat (i + n) < 2 ^ 64)%N -> s_pos (N.of_nat i) n = (Z.of_nat (i + n) - 1)%Z.
Proof. intros i n H. unfold s_pos. rewrite wrap64_small by lia. lia. Qed.

(** buckets *)
Lemma place_same : forall counts start, (N.of_nat (start + list_sum counts) < 2 ^ 31)%N -> place_buckets_int counts (Z.of_nat start) = place_buckets counts start.
Proof.
  induction counts as [|n counts IH]; intros start H; [reflexivity|]. change (list_sum (n :: counts)) with (n + list_sum counts) in H. cbn [place_buckets_int place_buckets]. cbv zeta.
  assert (L : (2 ^ 31 < 2 ^ 64)%N) by reflexivity. assert (LZ : (2 ^ 64)%Z = Z.of_N (2 ^ 64)) by reflexivity.
  rewrite word_small by lia. replace (Z.to_N (Z.of_nat start)) with (N.of_nat start) by lia. rewrite Nat2N.id. rewrite s_pos_small by lia. f_equal.
  rewrite wrap64_small by lia. rewrite int_small by lia. replace (Z.of_N (N.of_nat start + N.of_nat n)) with (Z.of_nat (start + n)) by lia. apply IH. lia.
Qed.
Lemma sum_upd : forall l i, i < length l -> list_sum (upd l i (S (nth i l 0))) = S (list_sum l).
Proof.
  induction l as [|x l IH]; intros i H; [cbn in H; lia|]. destruct i as [|i]; cbn [upd nth]; [reflexivity|].
  cbn [length] in H. change (list_sum (x :: upd l i (S (nth i l 0)))) with (x + list_sum (upd l i (S (nth i l 0)))). rewrite IH by lia.
  change (list_sum (x :: l)) with (x + list_sum l). lia.
Qed.
Lemma sum_repeat : forall k, list_sum (repeat 0 k) = 0.
Proof. induction k; auto. Qed.
Lemma counts_sum : forall str counts counts', foldM (fun l c => do n <- cget l c; cset l c (S n)) str counts = Ok counts' -> list_sum counts' = list_sum counts + length str.
Proof.
  induction str as [|c str IH]; intros counts counts' H; cbn [foldM] in H; [injection H as <-; cbn [length]; lia|].
  apply bind_Ok_inv in H as (l & E & H). apply bind_Ok_inv in E as (n & E1 & E2). unfold cget in E1. unfold cset in E2. destruct (N.ltb_spec c (N.of_nat (length counts))) as [B|]; [|discriminate].
  rewrite (lget_nth _ _ _ 0) in E1 by lia. injection E1 as <-. rewrite lset_Ok in E2 by lia. injection E2 as <-.
  rewrite (IH _ _ H), sum_upd by lia. cbn [length]. lia.
Qed.
(** index + count of every bucket stays in range *)
Definition in_range (bs : list bucket) : Prop := Forall (fun b => (N.of_nat (bk_index b + bk_count b) < 2 ^ 64)%N) bs.
Lemma buckets_same : forall str maxv, (N.of_nat (length str) < 2 ^ 31)%N -> make_buckets_int str maxv = make_buckets str maxv.
Proof.
  intros str maxv H. unfold make_buckets_int, make_buckets. destruct (count_chars maxv str) as [counts| | |] eqn:E; cbn [bind]; auto.
  f_equal. apply (place_same counts 0). unfold count_chars in E. apply counts_sum in E. rewrite sum_repeat in E. rewrite E. exact H.
Qed.
Lemma place_range : forall counts start, (N.of_nat (start + list_sum counts) < 2 ^ 64)%N -> in_range (place_buckets counts start).
Proof.
  unfold in_range. induction counts as [|n counts IH]; intros start H; cbn [place_buckets]; [constructor|]. change (list_sum (n :: counts)) with (n + list_sum counts) in H.
  constructor; [cbn [bk_index bk_count]; lia|]. apply IH. lia.
Qed.
Lemma buckets_range : forall str maxv bs, (N.of_nat (length str) < 2 ^ 31)%N -> make_buckets str maxv = Ok bs -> in_range bs.
Proof.
  intros str maxv bs H E. unfold make_buckets in E. apply bind_Ok_inv in E as (counts & E1 & E2). injection E2 as <-. apply place_range.
  unfold count_chars in E1. apply counts_sum in E1. rewrite sum_repeat in E1. rewrite E1. assert (2 ^ 31 < 2 ^ 64)%N by reflexivity. lia.
Qed.
Lemma Forall_upd : forall A (P : A -> Prop) l i x, Forall P l -> P x -> Forall P (upd l i x).
Proof. induction l as [|y l IH]; intros i x H K; [destruct i; constructor|]. inversion H; subst. destruct i; cbn [upd]; constructor; auto. Qed.
Lemma put_range : forall bs sa sl c id bs' sa' pos, in_range bs -> put_bucket bs sa sl c id = Ok (bs', sa', pos) -> in_range bs'.
Proof.
  intros bs sa sl c id bs' sa' pos H E. unfold put_bucket in E. apply bind_Ok_inv in E as (b & E1 & E). destruct (bk_full b); [discriminate|].
  assert (B : (N.of_nat (bk_index b + bk_count b) < 2 ^ 64)%N).
  { unfold cget in E1. destruct (N.ltb_spec c (N.of_nat (length bs))); [|discriminate]. apply (proj1 (Forall_forall _ _) H). unfold lget in E1. destruct (nth_error bs (N.to_nat c)) eqn:F; [|discriminate]. injection E1 as <-. eapply nth_error_In; eauto. }
  destruct sl.
  - destruct (bk_s b <? 0)%Z; [discriminate|]. cbv zeta in E. apply bind_Ok_inv in E as (sa1 & _ & E). apply bind_Ok_inv in E as (bs1 & E2 & E). injection E as <- _ _.
    unfold cset in E2. destruct (N.ltb_spec c (N.of_nat (length bs))); [|discriminate]. rewrite lset_Ok in E2 by lia. injection E2 as <-. apply Forall_upd; auto.
  - apply bind_Ok_inv in E as (sa1 & _ & E). apply bind_Ok_inv in E as (bs1 & E2 & E). injection E as <- _ _.
    unfold cset in E2. destruct (N.ltb_spec c (N.of_nat (length bs))); [|discriminate]. rewrite lset_Ok in E2 by lia. injection E2 as <-. apply Forall_upd; auto.
Qed.
Lemma init_same : forall bs, in_range bs -> map bk_init_s_int bs = map bk_init_s bs.
Proof. intros bs H. apply map_ext_in. intros b I. unfold bk_init_s_int, bk_init_s. rewrite s_pos_small; [reflexivity|]. exact (proj1 (Forall_forall _ _) H b I). Qed.
Lemma order_same : forall k, (N.of_nat k < 2 ^ 31)%N -> first_order k = rev (seq 0 k).
Proof.
  intros k H. unfold first_order. f_equal. f_equal. destruct k as [|k]; [reflexivity|].
  assert (E : wsub (N.of_nat (S k)) 1 = N.of_nat k).
  { unfold wsub. assert (2 ^ 31 < 2 ^ 64)%N by reflexivity. replace (N.of_nat (S k) + 2 ^ 64 - 1)%N with (N.of_nat k + 1 * 2 ^ 64)%N by lia. rewrite N.mod_add by discriminate. apply N.mod_small. lia. }
  rewrite E, int_small by lia. lia.
Qed.
Lemma induce_same : forall maxv str ts lms order, (N.of_nat (length str) < 2 ^ 31)%N -> induce_int maxv str ts lms order = induce maxv str ts lms order.
Proof.
  intros maxv str ts lms order H. apply sim_eq. unfold induce_int, induce. rewrite buckets_same by auto.
  eapply sim_bind with (R := fun a b => a = b /\ in_range b); [apply sim_refl; intros a E; split; auto; eapply buckets_range; eauto|]. intros bs bs0 [-> G].
  eapply sim_bind with (R := fun a b => a = b /\ in_range (fst (fst b))).
  { apply sim_fold; [|cbn [fst]; auto]. intros s t a _ [-> Q]. apply sim_refl. intros r E. split; auto. destruct t as [[b sa] poses]. cbn [fst] in Q. unfold put_lms in E.
    apply bind_Ok_inv in E as (id & _ & E). apply bind_Ok_inv in E as (c & _ & E). apply bind_Ok_inv in E as ([[b' sa'] pos] & E1 & E). apply bind_Ok_inv in E as (poses' & _ & E). injection E as <-. cbn [fst]. eapply put_range; eauto. }
  intros [[bs1 sa1] poses1] [[bs2 sa2] poses2] [E Q]. injection E as -> -> ->. cbn [fst] in Q.
  eapply sim_bind with (R := fun a b => a = b /\ in_range (fst b)).
  { apply sim_fold; [|cbn [fst]; auto]. intros s t a _ [-> P]. apply sim_refl. intros r E. split; auto. destruct t as [b sa]. cbn [fst] in P. unfold induce_step in E.
    apply bind_Ok_inv in E as (x & _ & E). destruct x as [[|id]|]; try (injection E as <-; exact P). apply bind_Ok_inv in E as (t & _ & E).
    destruct (Bool.eqb t false); [|injection E as <-; exact P]. apply bind_Ok_inv in E as (c & _ & E). apply bind_Ok_inv in E as ([[b' sa'] pos] & E1 & E). injection E as <-. cbn [fst]. eapply put_range; eauto. }
  intros [bs3 sa3] [bs4 sa4] [E P]. injection E as -> ->. cbn [fst] in P.
  eapply sim_bind with (R := eq); [apply sim_refl; auto|]. intros sa5 ? <-. cbv zeta. rewrite init_same by auto. apply sim_refl. auto.
Qed.

(** names *)
Definition same_last (s : list (option nat) * nat * Z) (t : list (option nat) * nat * nat) : Prop := fst s = fst t /\ snd s = Z.of_nat (snd t).
Lemma names_same : forall str ts sa sub, (N.of_nat (length str) < 2 ^ 31)%N -> length sub = length str ->
  sim (fun s t => fst s = fst t /\ length (fst (fst t)) = length str) (foldM (name_step_int str ts) sa (sub, 0, 0%Z)) (foldM (name_step str ts) sa (sub, 0, 0)).
Proof.
  intros str ts sa sub H L.
  assert (G : sim (fun s t => same_last s t /\ length (fst (fst t)) = length str) (foldM (name_step_int str ts) sa (sub, 0, 0%Z)) (foldM (name_step str ts) sa (sub, 0, 0))).
  2:{ destruct (foldM (name_step_int str ts) sa (sub, 0, 0%Z)), (foldM (name_step str ts) sa (sub, 0, 0)); cbn in *; auto. destruct G as [[G _] K]. auto. }
  apply sim_fold; [|split; [split; reflexivity|exact L]].
  intros [[su n] la] [[su' n'] la'] x _ [[E1 E2] K]. cbn [fst snd] in E1, E2, K. injection E1 as -> ->. subst la. unfold name_step_int, name_step. destruct x as [[|j]|]; [split; [split; reflexivity|exact K]| |exact I].
  eapply sim_bind with (R := eq); [apply sim_refl; auto|]. intros t0 ? <-. eapply sim_bind with (R := eq); [apply sim_refl; auto|]. intros t1 ? <-.
  destruct (negb t0 && t1); [|split; [split; reflexivity|exact K]].
  replace (0 <? Z.of_nat la')%Z with (0 <? la') by (destruct (Nat.ltb_spec 0 la'), (Z.ltb_spec 0 (Z.of_nat la')); lia). rewrite Nat2Z.id.
  eapply sim_bind with (R := eq); [apply sim_refl; auto|]. intros m ? <-.
  unfold lset. destruct (Nat.ltb_spec (S j) (length su')) as [B|B]; [|exact I]. cbn [bind]. split; [split|]; cbn [fst snd]; [reflexivity| |now rewrite upd_length].
  rewrite int_small by lia. apply nat_N_Z.
Qed.
Lemma squeeze_same : forall k sub, (N.of_nat (length sub) < 2 ^ 31)%N -> squeeze_int k sub = squeeze k sub.
Proof.
  intros k sub H. apply sim_eq. unfold squeeze_int, squeeze. change (2 ^ 31)%N with 2147483648%N in H.
  assert (G : forall (sub : list (option nat)) (l : list nat) (i : nat), (Z.of_nat i + Z.of_nat (length sub) < 2147483648)%Z -> sim (fun s t => fst s = fst t)
     (foldM (fun st x => let '(l, i) := st in match x with None => Ok st | Some v => do l <- lset l (Z.to_nat i) v; do i <- int_inc i; Ok (l, i) end) sub (l, Z.of_nat i))
     (foldM (fun st x => let '(l, i) := st in match x with None => Ok st | Some v => do l <- lset l i v; Ok (l, S i) end) sub (l, i))).
  { clear. induction sub as [|x sub IH]; intros l i H; [reflexivity|]. cbn [foldM length] in *. destruct x as [v|]; [|cbn [bind]; apply IH; lia].
    rewrite Nat2Z.id. unfold int_inc. change (2 ^ 31 - 1)%Z with 2147483647%Z. destruct (Z.eqb_spec (Z.of_nat i) 2147483647) as [|_]; [lia|].
    destruct (lset l i v) as [l'| | |]; cbn [bind]; try exact I. replace (Z.of_nat i + 1)%Z with (Z.of_nat (S i)) by lia. apply IH. lia. }
  eapply sim_bind; [apply (G sub (repeat 0 k) 0); lia|]. intros a b E. exact E.
Qed.
Lemma squeeze_length : forall k sub l, squeeze k sub = Ok l -> length l = k.
Proof.
  intros k sub l H. unfold squeeze in H. apply bind_Ok_inv in H as ([l' i] & E & H). injection H as <-. cbn [fst].
  assert (G : forall (sub : list (option nat)) (l : list nat) (i : nat) (l' : list nat) (i' : nat), foldM (fun st x => let '(l, i) := st in match x with None => Ok st | Some v => do l <- lset l i v; Ok (l, S i) end) sub (l, i) = Ok (l', i') -> length l' = length l).
  { clear. induction sub as [|x sub IH]; intros l i l' i' H; cbn [foldM] in H; [injection H as <- _; reflexivity|]. destruct x as [v|]; [|cbn [bind] in H; eauto].
    destruct (lset l i v) as [l1| | |] eqn:E; cbn [bind] in H; try discriminate. apply IH in H. rewrite H. unfold lset in E. destruct (i <? length l); [|discriminate]. injection E as <-. apply upd_length. }
  rewrite (G _ _ _ _ _ E). apply repeat_length.
Qed.
Lemma lms_few : forall ts, length (find_lms ts) <= length ts.
Proof.
  intros ts. unfold find_lms. assert (G : forall l, length (filter (is_lms ts) l) <= length l) by (induction l; cbn [filter length]; [lia|destruct (is_lms ts a); cbn [length]; lia]).
  specialize (G (seq 1 (length ts - 1))). rewrite seq_length in G. lia.
Qed.
Lemma classified_len : forall str, length (classified str) = length str.
Proof. induction str as [|c [|d rest] IH]; auto. cbn [classified length] in *. now rewrite IH. Qed.
Lemma sais_same : forall fuel str maxv, (N.of_nat (length str) < 2 ^ 31)%N -> sais_int fuel str maxv = sais fuel str maxv.
Proof.
  induction fuel as [|fuel IH]; intros str maxv H; [reflexivity|]. apply sim_eq. cbn [sais_int sais]. cbv zeta.
  assert (L : (N.of_nat (length (find_lms (classified str))) < 2 ^ 31)%N) by (pose proof (lms_few (classified str)) as G; rewrite classified_len in G; lia).
  rewrite order_same, induce_same by auto. eapply sim_bind with (R := eq); [apply sim_refl; auto|]. intros sa ? <-.
  eapply sim_bind; [apply names_same; [exact H|apply repeat_length]|]. intros [[su n] la] [[su' n'] la'] [E K]. cbn [fst] in E, K. injection E as -> ->.
  rewrite squeeze_same by lia. eapply sim_bind with (R := fun a b => a = b /\ length b = length (find_lms (classified str))); [apply sim_refl; intros a E; split; auto; eapply squeeze_length; eauto|].
  intros sub ? [-> Q]. destruct (_ =? _); [reflexivity|]. rewrite IH by (rewrite map_length; lia). eapply sim_bind with (R := eq); [apply sim_refl; auto|]. intros ssa ? <-.
  eapply sim_bind with (R := eq); [apply sim_refl; auto|]. intros order ? <-. rewrite induce_same by auto. apply sim_refl. auto.
Qed.

(** common prefixes *)
Lemma compare_bound : forall fuel s li ri m x, compare_lcp fuel s li ri m = Ok x -> m <= li -> x <= Nat.max m (length s).
Proof.
  induction fuel as [|fuel IH]; intros s li ri m x H K; cbn [compare_lcp] in H; [discriminate|].
  destruct (Nat.ltb_spec (Nat.max li ri) (length s)) as [B|]; [|injection H as <-; lia]. apply bind_Ok_inv in H as (a & _ & H). apply bind_Ok_inv in H as (b & _ & H).
  destruct (a =? b)%N; [|injection H as <-; lia]. apply IH in H; lia.
Qed.
Lemma lcp_same : forall s sa, (N.of_nat (length s) < 2 ^ 31)%N -> build_lcp_int s sa = build_lcp s sa.
Proof.
  intros s sa H. apply sim_eq. unfold build_lcp_int, build_lcp. eapply sim_bind with (R := eq); [apply sim_refl; auto|]. intros inv ? <-.
  eapply sim_bind with (R := fun u v => (fst u = fst v /\ snd u = Z.of_nat (snd v)) /\ snd v <= length s).
  - apply sim_fold; [|split; [split; reflexivity|cbn [snd]; lia]]. intros [lcp prev] [lcp' prev'] i _ [[E1 E2] K]. cbn [fst snd] in E1, E2, K. subst lcp prev. unfold lcp_step_int, lcp_step.
    eapply sim_bind with (R := eq); [apply sim_refl; auto|]. intros pos ? <-.
    eapply sim_bind with (R := fun a b => a = b /\ b <= length s).
    + destruct (pos =? length inv - 1); [cbn; lia|]. eapply sim_bind with (R := eq); [apply sim_refl; auto|]. intros r ? <-. cbv zeta.
      replace (1 <? Z.of_nat prev')%Z with (1 <? prev') by (destruct (Nat.ltb_spec 1 prev'), (Z.ltb_spec 1 (Z.of_nat prev')); lia).
      replace (Z.to_nat (Z.of_nat prev' - 1)) with (prev' - 1) by lia. apply sim_refl. intros a E. split; auto. apply compare_bound in E; destruct (1 <? prev'); lia.
    + intros x ? [-> B]. destruct (lset lcp' pos b) as [l| | |]; cbn [bind]; try exact I. split; [split|]; cbn [fst snd]; auto. rewrite int_small by lia. lia.
  - intros [l p] [l' p'] [[E _] _]. cbn [fst] in E. subst l'. cbn [fst]. apply sim_refl. auto.
Qed.
Lemma short_same : forall s, (N.of_nat (length s) + 1 < 2 ^ 31)%N -> suffix_array_int s = suffix_array s.
Proof.
  intros s H. unfold suffix_array_int, suffix_array, build_sa_int, build_sa. rewrite sais_same by (unfold sais_str; rewrite app_length, map_length; cbn [length]; lia).
  apply sim_eq. eapply sim_bind with (R := eq); [apply sim_refl; auto|]. intros sa ? <-. rewrite lcp_same by lia. apply sim_refl. auto.
Qed.
