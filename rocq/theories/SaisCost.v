(** Proofs about SaisCostModel.v (C133). *)
From Coq Require Import List NArith ZArith Arith Bool Lia Permutation Sorted.
From Verif Require Import Base Spec5 Spec6 FitVectorModel FitVectorProof SuffixModel LcpProof SaisRows SaisPut SaisInduce SaisKey SaisOrder SaisName SaisTotal SaisSort SaisPublic SaisCtor SaisCostModel.
Import ListNotations.
Local Open Scope nat_scope.

(** ** Loops *)
Lemma loop_from : forall A X (f : A -> X -> res A) l a k, foldM (tick f) l (a, k) = rmap (fun r => (r, k + length l)) (foldM f l a).
Proof.
  induction l as [|x l IH]; intros a k; cbn [foldM length]; [rewrite Nat.add_0_r; reflexivity|]. unfold tick at 1. cbn [fst snd].
  destruct (f a x) as [b| | |]; try reflexivity. cbn [bind]. rewrite IH. replace (k + S (length l)) with (S k + length l) by lia. reflexivity.
Qed.
Lemma loop_eq : forall A X (f : A -> X -> res A) l a, loop f l a = rmap (fun r => (r, length l)) (foldM f l a).
Proof. intros. unfold loop. rewrite loop_from. reflexivity. Qed.

Lemma classified_count_eq : forall str, classified_count str = (classified str, length str - 1).
Proof.
  induction str as [|c [|d rest] IH]; [reflexivity|reflexivity|]. cbn [classified_count classified] in *. rewrite IH. cbn [fst snd length]. f_equal. lia.
Qed.
Lemma find_lms_count_eq : forall ts, find_lms_count ts = (find_lms ts, length ts - 1).
Proof.
  intros ts. unfold find_lms_count, find_lms. assert (G : forall l a k, fold_left (fun st i => (if is_lms ts i then fst st ++ [i] else fst st, S (snd st))) l (a, k) = (a ++ filter (is_lms ts) l, k + length l)).
  { induction l as [|x l IH]; intros a k; cbn [fold_left filter length fst snd]; [rewrite app_nil_r, Nat.add_0_r; reflexivity|]. rewrite IH. destruct (is_lms ts x); [rewrite <- app_assoc|]; f_equal; lia. }
  rewrite G, seq_length. reflexivity.
Qed.
Lemma place_buckets_count_eq : forall counts start, place_buckets_count counts start = (place_buckets counts start, length counts).
Proof. induction counts as [|n l IH]; intros start; [reflexivity|]. cbn [place_buckets_count place_buckets length]. rewrite IH. reflexivity. Qed.
Lemma cset_len : forall A (l l' : list A) c x, cset l c x = Ok l' -> length l' = length l.
Proof. intros A l l' c x E. unfold cset in E. destruct (_ <? _)%N; [|discriminate]. apply lset_inv in E. destruct E as [_ ->]. apply upd_length. Qed.
Lemma count_len : forall str (l l' : list nat), foldM (fun l c => do n <- cget l c; cset l c (S n)) str l = Ok l' -> length l' = length l.
Proof.
  induction str as [|c str IH]; intros l l' E; cbn [foldM] in E; [congruence|]. apply bind_Ok_inv in E. destruct E as (l1 & E1 & E). apply bind_Ok_inv in E1. destruct E1 as (k & _ & E1).
  rewrite (IH _ _ E). apply (cset_len _ _ _ _ _ E1).
Qed.
Lemma make_buckets_count_eq : forall str maxv, make_buckets_count str maxv = rmap (fun b => (b, length str + S maxv)) (make_buckets str maxv).
Proof.
  intros. unfold make_buckets_count, make_buckets, count_chars. rewrite loop_eq.
  destruct (foldM (fun (l : list nat) (c : N) => do n <- cget l c; cset l c (S n)) str (repeat 0 (S maxv))) as [l| | |] eqn:E; try reflexivity.
  cbn [rmap bind fst snd]. rewrite place_buckets_count_eq. cbn [fst snd]. rewrite (count_len _ _ _ E), repeat_length. reflexivity.
Qed.
Lemma equal_lms_count_eq : forall fuel str ts cur li ri, rmap fst (equal_lms_count fuel str ts cur li ri) = equal_lms fuel str ts cur li ri.
Proof.
  induction fuel as [|fuel IH]; intros; [reflexivity|]. cbn [equal_lms_count equal_lms]. destruct (lget str li); try reflexivity. cbn [bind]. destruct (lget str ri); try reflexivity. cbn [bind].
  destruct (negb _); [reflexivity|]. destruct (lget ts li) as [t| | |]; try reflexivity. cbn [bind]. destruct (negb cur && t); [reflexivity|]. rewrite <- IH. destruct (equal_lms_count fuel str ts t (S li) (S ri)); reflexivity.
Qed.

Lemma rmap_Ok : forall A B (f : A -> B) m b, rmap f m = Ok b -> exists a, m = Ok a /\ b = f a.
Proof. intros A B f m b E. unfold rmap in E. apply bind_Ok_inv in E. destruct E as (a & Ea & E). injection E as <-. eauto. Qed.

Lemma poses_len : forall str lms order bs sa poses bs' sa' poses', foldM (put_lms str lms) order (bs, sa, poses) = Ok (bs', sa', poses') -> length poses' = length poses /\ length bs' = length bs.
Proof.
  induction order as [|i l IH]; intros bs sa poses bs' sa' poses' E; cbn [foldM] in E; [injection E as <- <- <-; auto|].
  apply bind_Ok_inv in E. destruct E as ([[b1 s1] p1] & E1 & E). apply IH in E. destruct E as [-> ->]. unfold put_lms in E1.
  apply bind_Ok_inv in E1. destruct E1 as (id & _ & E1). apply bind_Ok_inv in E1. destruct E1 as (c & _ & E1). apply bind_Ok_inv in E1. destruct E1 as ([[b2 s2] pos] & E2 & E1).
  apply bind_Ok_inv in E1. destruct E1 as (p2 & E3 & E1). injection E1 as <- <- <-. apply lset_inv in E3. destruct E3 as [_ ->]. rewrite upd_length. split; [reflexivity|].
  unfold put_bucket in E2. apply bind_Ok_inv in E2. destruct E2 as (b & _ & E2). destruct (bk_full b); [discriminate|]. destruct (bk_s b <? 0)%Z; [discriminate|]. cbn zeta in E2.
  apply bind_Ok_inv in E2. destruct E2 as (s3 & _ & E2). apply bind_Ok_inv in E2. destruct E2 as (b3 & E4 & E2). injection E2 as <- _ _. apply (cset_len _ _ _ _ _ E4).
Qed.
Lemma put_bucket_len : forall bs sa sl c id bs' sa' pos, put_bucket bs sa sl c id = Ok (bs', sa', pos) -> length bs' = length bs.
Proof.
  intros bs sa sl c id bs' sa' pos E2. unfold put_bucket in E2. apply bind_Ok_inv in E2. destruct E2 as (b & _ & E2). destruct (bk_full b); [discriminate|]. destruct sl.
  - destruct (bk_s b <? 0)%Z; [discriminate|]. cbn zeta in E2. apply bind_Ok_inv in E2. destruct E2 as (s3 & _ & E2). apply bind_Ok_inv in E2. destruct E2 as (b3 & E4 & E2). injection E2 as <- _ _. apply (cset_len _ _ _ _ _ E4).
  - apply bind_Ok_inv in E2. destruct E2 as (s3 & _ & E2). apply bind_Ok_inv in E2. destruct E2 as (b3 & E4 & E2). injection E2 as <- _ _. apply (cset_len _ _ _ _ _ E4).
Qed.
Lemma induce_steps_len : forall str ts sl l bs sa bs' sa', foldM (induce_step str ts sl) l (bs, sa) = Ok (bs', sa') -> length bs' = length bs.
Proof.
  induction l as [|i l IH]; intros bs sa bs' sa' E; cbn [foldM] in E; [congruence|]. apply bind_Ok_inv in E. destruct E as ([b1 s1] & E1 & E). rewrite (IH _ _ _ _ E). unfold induce_step in E1.
  apply bind_Ok_inv in E1. destruct E1 as ([[|id]|] & _ & E1); try congruence. apply bind_Ok_inv in E1. destruct E1 as (t & _ & E1). destruct (Bool.eqb t sl); [|congruence].
  apply bind_Ok_inv in E1. destruct E1 as (c & _ & E1). apply bind_Ok_inv in E1. destruct E1 as ([[b2 s2] pos] & E2 & E1). injection E1 as <- _. apply (put_bucket_len _ _ _ _ _ _ _ _ E2).
Qed.
Lemma buckets_len : forall str maxv bs, make_buckets str maxv = Ok bs -> length bs = S maxv.
Proof.
  intros str maxv bs E. unfold make_buckets, count_chars in E. apply bind_Ok_inv in E. destruct E as (l & E & F). injection F as <-. apply count_len in E. rewrite repeat_length in E. rewrite <- E. clear E.
  generalize 0. induction l as [|x l IH]; intros k; [reflexivity|]. cbn [place_buckets length]. rewrite IH. reflexivity.
Qed.
Lemma init_loop : forall bs a, foldM (fun bs b => Ok (bs ++ [bk_init_s b])) bs a = Ok (a ++ map bk_init_s bs).
Proof. induction bs as [|b bs IH]; intros a; cbn [foldM map bind]; [rewrite app_nil_r; reflexivity|]. rewrite IH, <- app_assoc. reflexivity. Qed.

Lemma induce_count_eq : forall maxv str ts lms order, induce_count maxv str ts lms order =
  rmap (fun sa => (sa, 3 * length str + 2 * S maxv + length order + length lms)) (induce maxv str ts lms order).
Proof.
  intros. unfold induce_count, induce. rewrite make_buckets_count_eq. destruct (make_buckets str maxv) as [bs| | |] eqn:EB; try reflexivity. cbn [rmap bind fst snd].
  rewrite loop_eq. destruct (foldM (put_lms str lms) order (bs, repeat None (length str), repeat 0 (length lms))) as [[[bs1 sa1] poses]| | |] eqn:E1; try reflexivity. cbn [rmap bind fst snd].
  rewrite loop_eq. destruct (foldM (induce_step str ts false) (seq 0 (length str)) (bs1, sa1)) as [[bs2 sa2]| | |] eqn:E2; try reflexivity. cbn [rmap bind fst snd].
  rewrite loop_eq. destruct (foldM (fun sa pos => if pos =? 0 then Ok sa else lset sa pos None) poses sa2) as [sa3| | |] eqn:E3; try reflexivity. cbn [rmap bind fst snd].
  rewrite loop_eq, init_loop. cbn [rmap bind fst snd app]. rewrite loop_eq. cbv zeta.
  destruct (foldM (induce_step str ts true) (rev (seq 0 (length str))) (map bk_init_s bs2, sa3)) as [[bs5 sa5]| | |] eqn:E5; try reflexivity. cbn [rmap bind fst snd].
  apply poses_len in E1. destruct E1 as [L1 L1']. rewrite repeat_length in L1. apply induce_steps_len in E2. apply buckets_len in EB. rewrite rev_length, seq_length. do 2 f_equal. lia.
Qed.

Lemma name_step_same : forall str ts sub n last k x, rmap fst (name_step_count str ts (sub, n, last, k) x) = name_step str ts (sub, n, last) x.
Proof.
  intros. destruct x as [[|j]|]; [reflexivity| |reflexivity]. cbn [name_step_count name_step]. destruct (lget ts j) as [t0| | |]; try reflexivity. cbn [bind]. destruct (lget ts (S j)) as [t1| | |]; try reflexivity. cbn [bind].
  destruct (negb t0 && t1); [|reflexivity]. destruct (0 <? last).
  - rewrite <- equal_lms_count_eq. destruct (equal_lms_count (S (length str)) str ts true last (S j)) as [[e c]| | |]; try reflexivity. cbn [rmap bind fst snd]. destruct (lset sub (S j) (Some (if e then n else S n))); reflexivity.
  - cbn [bind fst snd]. destruct (lset sub (S j) (Some n)); reflexivity.
Qed.
Lemma names_same : forall str ts l sub n last k, rmap fst (foldM (name_step_count str ts) l (sub, n, last, k)) = foldM (name_step str ts) l (sub, n, last).
Proof.
  induction l as [|x l IH]; intros; [reflexivity|]. cbn [foldM]. rewrite <- (name_step_same str ts sub n last k x). destruct (name_step_count str ts (sub, n, last, k) x) as [[[[s1 n1] l1] k1]| | |]; try reflexivity. cbn [rmap bind fst]. apply IH.
Qed.
Lemma squeeze_count_eq : forall k sub, squeeze_count k sub = rmap (fun l => (l, length sub)) (squeeze k sub).
Proof.
  intros. unfold squeeze_count, squeeze. rewrite loop_eq. match goal with |- context[foldM ?f sub ?a] => destruct (foldM f sub a) as [[l i]| | |] end; reflexivity.
Qed.

Lemma sais_count_same : forall fuel str maxv, rmap (fun r => fst (fst r)) (sais_count fuel str maxv) = sais fuel str maxv.
Proof.
  induction fuel as [|fuel IH]; intros; [reflexivity|]. cbn [sais_count sais]. cbv zeta. rewrite classified_count_eq. cbn [fst snd]. rewrite find_lms_count_eq. cbn [fst snd]. set (ts := classified str). set (lms := find_lms ts).
  rewrite induce_count_eq. destruct (induce maxv str ts lms (rev (seq 0 (length lms)))) as [sa| | |]; try reflexivity. cbn [rmap bind fst snd].
  rewrite <- (names_same str ts sa (repeat None (length str)) 0 0 0). destruct (foldM (name_step_count str ts) sa (repeat None (length str), 0, 0, 0)) as [[[[sub n] last] k]| | |]; try reflexivity. cbn [rmap bind fst snd].
  rewrite squeeze_count_eq. destruct (squeeze (length lms) sub) as [red| | |]; try reflexivity. cbn [rmap bind fst snd]. destruct (length lms =? S n); [reflexivity|].
  rewrite <- IH. destruct (sais_count fuel (map N.of_nat red) n) as [[[ssa k4] sizes]| | |]; try reflexivity. cbn [rmap bind fst snd]. destruct (mapM _ ssa) as [order| | |]; try reflexivity. cbn [bind].
  rewrite induce_count_eq. destruct (induce maxv str ts lms (rev order)); reflexivity.
Qed.

(** ** The number of LMS positions *)
Lemma lms_half : forall ts, 2 * length (find_lms ts) <= length ts.
Proof.
  intros ts. unfold find_lms. destruct (length ts) as [|k] eqn:E; [reflexivity|]. rewrite Nat.sub_succ, Nat.sub_0_r. clear E.
  assert (G : 2 * length (filter (is_lms ts) (seq 1 k)) <= k + (if is_lms ts k then 1 else 0)); [|destruct (is_lms ts k); lia].
  induction k as [|k IH]; [cbn; lia|]. rewrite seq_S, filter_app, app_length. cbn [filter Nat.add].
  destruct (is_lms ts (S k)) eqn:L; cbn [length]; [|destruct (is_lms ts k); lia].
  assert (Q : is_lms ts k = false). { cbn [is_lms] in L. apply andb_prop in L. destruct L as [L _]. destruct k; [reflexivity|]. cbn [is_lms]. rewrite (nth_indep ts true false) in L by (destruct (le_lt_dec (length ts) (S k)) as [X|X]; auto; rewrite nth_overflow in L by auto; discriminate). destruct (nth (S k) ts false); [discriminate|apply andb_false_r]. }
  rewrite Q in IH. lia.
Qed.

(** ** The comparisons of LMS substrings *)
Section Eq.
Variable str : list N.
Let ts := classified str.
Let n := length str.

Fixpoint owner (q : nat) : nat := if lmsb str q then q else match q with O => O | S q => owner q end.
Lemma owner_near : forall p j, lmsb str p = true -> (forall i, 0 < i -> i <= j -> lmsb str (p + i) = false) -> owner (p + j) = p.
Proof.
  intros p j P. induction j as [|j IH]; intros H. - rewrite Nat.add_0_r. destruct p; cbn [owner]; rewrite P; reflexivity.
  - replace (p + S j) with (S (p + j)) by lia. cbn [owner]. replace (S (p + j)) with (p + S j) by lia. rewrite (H (S j)) by lia. apply IH. intros. apply H; lia.
Qed.
Definition owned (p : nat) : nat := length (filter (fun q => owner q =? p) (seq 0 n)).

Lemma equal_span : forall fuel cur li ri b c, equal_lms_count fuel str ts cur li ri = Ok (b, c) -> length ts = n ->
  1 <= c /\ li + c <= n /\ forall j, j + 1 < c -> if j =? 0 then negb cur && nth li ts true = false else lmsb str (li + j) = false.
Proof.
  induction fuel as [|fuel IH]; intros cur li ri b c E LT; [discriminate|]. cbn [equal_lms_count] in E.
  apply bind_Ok_inv in E. destruct E as (x & X & E). apply bind_Ok_inv in E. destruct E as (y & Y & E).
  assert (Li : li < n). { destruct (le_lt_dec (length str) li) as [Q|Q]; [|exact Q]. apply lget_UB in Q. congruence. }
  destruct (negb (x =? y)%N). { injection E as <- <-. split; [lia|]. split; [lia|]. intros; lia. }
  apply bind_Ok_inv in E. destruct E as (t & T & E). destruct (negb cur && t) eqn:S0. { injection E as <- <-. split; [lia|]. split; [lia|]. intros; lia. }
  apply bind_Ok_inv in E. destruct E as ([b1 c1] & E1 & E). injection E as <- <-. cbn [fst snd] in *. destruct (IH _ _ _ _ _ E1 LT) as (C1 & C2 & C3). split; [lia|]. split; [lia|].
  assert (Tn : nth li ts true = t). { rewrite (lget_nth _ ts li true) in T by lia. congruence. }
  intros [|j] J; cbn [Nat.eqb]. - rewrite Tn. exact S0. - specialize (C3 j ltac:(lia)). destruct j as [|j]; cbn [Nat.eqb] in C3.
  + replace (li + 1) with (S li) by lia. unfold lmsb. fold ts. cbn [is_lms]. rewrite Tn, (nth_indep ts false true) by lia. exact C3.
  + replace (li + S (S j)) with (S li + S j) by lia. exact C3.
Qed.
Lemma equal_owned : forall fuel li ri b c, lmsb str li = true -> equal_lms_count fuel str ts true li ri = Ok (b, c) -> length ts = n -> c <= S (owned li).
Proof.
  intros fuel li ri b c L E LT. destruct (equal_span _ _ _ _ _ _ E LT) as (C1 & C2 & C3). unfold owned.
  assert (Q : length (seq li (c - 1)) <= length (filter (fun q => owner q =? li) (seq 0 n))); [|rewrite seq_length in Q; lia].
  apply NoDup_incl_length; [apply seq_NoDup|]. intros q Hq. apply in_seq in Hq. apply filter_In. split; [apply in_seq; lia|]. apply Nat.eqb_eq. replace q with (li + (q - li)) by lia. apply owner_near; auto.
  intros i I1 I2. specialize (C3 i ltac:(lia)). destruct i; [lia|exact C3].
Qed.

Definition total (l : list nat) : nat := fold_right (fun p a => S (owned p) + a) 0 l.
Lemma total_app : forall a b, total (a ++ b) = total a + total b.
Proof. induction a as [|x a IH]; intros b; cbn [app total fold_right]; [reflexivity|]. fold (total (a ++ b)). fold (total a). rewrite IH. lia. Qed.
Lemma filter_split : forall (f : nat -> nat) p l, length (filter (fun q => f q =? p) l) + length (filter (fun q => negb (f q =? p)) l) = length l.
Proof. induction l as [|x l IH]; [reflexivity|]. cbn [filter]. destruct (f x =? p); cbn [negb length]; lia. Qed.
Lemma parts : forall (f : nat -> nat) ps l, NoDup ps -> fold_right (fun p a => length (filter (fun q => f q =? p) l) + a) 0 ps <= length l.
Proof.
  induction ps as [|p ps IH]; intros l ND; cbn [fold_right]; [lia|]. inversion ND as [|? ? Ni Nd]; subst. specialize (IH (filter (fun q => negb (f q =? p)) l) Nd).
  pose proof (filter_split f p l) as FS.
  assert (EQ : fold_right (fun p0 a => length (filter (fun q => f q =? p0) l) + a) 0 ps = fold_right (fun p0 a => length (filter (fun q => f q =? p0) (filter (fun q => negb (f q =? p)) l)) + a) 0 ps).
  { clear IH Nd ND. induction ps as [|r ps IHp]; [reflexivity|]. cbn [fold_right]. rewrite IHp by (intros X; apply Ni; right; auto). f_equal.
    assert (NE : r <> p) by (intros ->; apply Ni; left; auto). clear -NE. induction l as [|x l IHl]; [reflexivity|]. cbn [filter]. destruct (Nat.eqb_spec (f x) p) as [X|X]; cbn [negb].
    - destruct (Nat.eqb_spec (f x) r); [congruence|]. exact IHl. - cbn [filter]. destruct (f x =? r); cbn [length]; congruence. }
  rewrite EQ. lia.
Qed.
Lemma total_le : forall l, NoDup l -> total l <= n + length l.
Proof.
  intros l ND. pose proof (parts owner l (seq 0 n) ND) as P. rewrite seq_length in P. assert (G : total l = fold_right (fun p a => length (filter (fun q => owner q =? p) (seq 0 n)) + a) 0 l + length l); [|lia].
  clear. induction l as [|x l IH]; [reflexivity|]. cbn [total fold_right length]. fold (total l). rewrite IH. unfold owned. lia.
Qed.

Lemma names_cost : forall l sub k last c sub' k' last' c', length ts = n -> foldM (name_step_count str ts) (map Some l) (sub, k, last, c) = Ok (sub', k', last', c') -> (last = 0 \/ lmsb str last = true) ->
  c' <= c + length l + total (filter (lmsb str) l) + (if last =? 0 then 0 else S (owned last)).
Proof.
  induction l as [|x l IH]; intros sub k last c sub' k' last' c' LT E HL; cbn [map foldM] in E.
  - injection E as <- <- <- <-. cbn [length filter total fold_right]. lia.
  - apply bind_Ok_inv in E. destruct E as ([[[s1 k1] l1] c1] & E1 & E). cbn [length filter].
    destruct x as [|j]; cbn [name_step_count] in E1.
    { injection E1 as <- <- <- <-. specialize (IH _ _ _ _ _ _ _ _ LT E HL). change (lmsb str 0) with false. cbv iota. lia. }
    apply bind_Ok_inv in E1. destruct E1 as (t0 & T0 & E1). apply bind_Ok_inv in E1. destruct E1 as (t1 & T1 & E1).
    assert (Ls : lmsb str (S j) = negb t0 && t1).
    { unfold lmsb. fold ts. cbn [is_lms]. unfold lget in T0, T1. destruct (nth_error ts j) eqn:N0; [|discriminate]. injection T0 as <-. destruct (nth_error ts (S j)) eqn:N1; [|discriminate]. injection T1 as <-.
      rewrite (nth_error_nth _ _ _ N0), (nth_error_nth _ _ _ N1). reflexivity. }
    rewrite <- Ls in E1. destruct (lmsb str (S j)) eqn:L.
    + apply bind_Ok_inv in E1. destruct E1 as ([r1 r2] & R & E1). apply bind_Ok_inv in E1. destruct E1 as (s2 & _ & E1). injection E1 as <- <- <- <-. cbn [fst snd] in *.
      specialize (IH _ _ _ _ _ _ _ _ LT E (or_intror L)). change (S j =? 0) with false in IH. cbv iota in IH.
      change (total (S j :: filter (lmsb str) l)) with (S (owned (S j)) + total (filter (lmsb str) l)).
      assert (R2 : r2 <= if last =? 0 then 0 else S (owned last)); [|lia].
      destruct (Nat.ltb_spec 0 last) as [Z|Z].
      * apply bind_Ok_inv in R. destruct R as ([e ce] & R & R'). injection R' as _ <-. cbn [snd]. destruct (Nat.eqb_spec last 0); [lia|]. destruct HL as [|HL]; [lia|]. apply (equal_owned _ _ _ _ _ HL R LT).
      * injection R as _ <-. lia.
    + injection E1 as <- <- <- <-. specialize (IH _ _ _ _ _ _ _ _ LT E HL). lia.
Qed.
End Eq.

(** ** The whole recursion *)
Lemma mapM_len : forall A B (f : A -> res B) l r, mapM f l = Ok r -> length r = length l.
Proof.
  induction l as [|x l IH]; intros r E; cbn [mapM] in E; [injection E as <-; reflexivity|]. apply bind_Ok_inv in E. destruct E as (y & _ & E). apply bind_Ok_inv in E. destruct E as (ys & Ey & E). injection E as <-. cbn [length]. rewrite (IH _ Ey). reflexivity.
Qed.
Definition halving (sizes : list nat) : Prop := forall i, S i < length sizes -> 2 * nth (S i) sizes 0 <= nth i sizes 0.

Lemma sais_cost : forall fuel str maxv sa k sizes, valid str maxv -> length str <= fuel -> sais_count fuel str maxv = Ok (sa, k, sizes) ->
  k <= 31 * length str + 4 * S maxv /\ sizes <> [] /\ hd 0 sizes = length str /\ halving sizes /\ 2 ^ length sizes <= length str /\ fold_right Nat.add 0 sizes <= 2 * length str /\ Forall (fun m => 2 <= m) sizes.
Proof.
  induction fuel as [|fuel IH]; intros str maxv sa k sizes HV LF E; [discriminate|]. pose proof (n2 str maxv HV) as N2. set (n := length str) in *.
  cbn [sais_count] in E. cbv zeta in E. rewrite classified_count_eq in E. cbn [fst snd] in E. rewrite find_lms_count_eq in E. cbn [fst snd] in E.
  destruct (first_pass str maxv HV) as (U & sub & kk & last & E1 & P & SS & E2 & NM & E3). fold n in P, E2. set (ts := classified str) in *. set (lms := find_lms ts) in *.
  assert (LT : length ts = n) by apply (ts_len str maxv HV). pose proof (lms_half ts) as LH. fold lms in LH. rewrite LT in LH.
  rewrite induce_count_eq, E1 in E. cbn [rmap bind fst snd] in E. fold n in E. rewrite rev_length, seq_length in E.
  destruct (foldM (name_step_count str ts) (map Some U) (repeat None n, 0, 0, 0)) as [[[[sub1 k1] last1] c1]| | |] eqn:EN.
  2-4: (exfalso; pose proof (names_same str ts (map Some U) (repeat None n) 0 0 0) as Q; rewrite EN, E2 in Q; discriminate).
  cbn [bind] in E. assert (Q : (sub1, k1, last1) = (sub, kk, last)). { pose proof (names_same str ts (map Some U) (repeat None n) 0 0 0) as Q; rewrite EN, E2 in Q. cbn [rmap bind fst] in Q. congruence. }
  injection Q as -> -> ->. rewrite squeeze_count_eq, E3 in E. cbn [rmap bind fst snd] in E.
  assert (C1 : c1 <= 2 * n + length lms).
  { pose proof (names_cost str U _ _ _ _ _ _ _ _ LT EN (or_introl eq_refl)) as C. cbn [Nat.eqb] in C. rewrite (Permutation_length P), seq_length in C.
    assert (ND : NoDup (filter (lmsb str) U)) by (apply NoDup_filter; apply (Permutation_NoDup (Permutation_sym P)), seq_NoDup). pose proof (total_le str _ ND) as T. fold n in T.
    assert (LL : length (filter (lmsb str) U) <= length lms). { apply NoDup_incl_length; auto. intros p Hp. apply filter_In in Hp. apply (in_lms str maxv HV). tauto. } lia. }
  assert (Lsub : length sub = n) by apply (nm_len _ _ _ _ _ _ NM). rewrite Lsub in E.
  destruct (Nat.eqb_spec (length lms) (S kk)) as [Z|Z].
  - injection E as <- <- <-. split; [lia|]. split; [discriminate|]. split; [reflexivity|]. split; [intros i I; cbn [length] in I; lia|]. split; [cbn [length Nat.pow]; lia|]. split; [cbn [fold_right]; lia|]. repeat constructor. exact N2.
  - set (red := map N.of_nat (map (nmf sub) lms)) in *. assert (Lr : length red = length lms) by (unfold red; rewrite !map_length; reflexivity).
    destruct (names_few str maxv HV _ _ _ _ _ P NM) as [_ FEW]. fold ts in FEW. fold lms in FEW.
    assert (Vr : valid red kk) by (apply (reduced_valid str maxv HV _ _ _ _ _ P NM); fold ts; fold lms; lia).
    destruct (sais_count fuel red kk) as [[[ssa k4] sz]| | |] eqn:E4; try discriminate. cbn [bind] in E.
    destruct (IH red kk ssa k4 sz Vr ltac:(lia) E4) as (K & S1 & S2 & S3 & S4 & S5 & S6). rewrite Lr in *.
    destruct (mapM _ ssa) as [order| | |] eqn:EO; try discriminate. cbn [bind] in E. apply mapM_len in EO.
    assert (LS : length ssa = length lms). { destruct (sais_ok fuel red kk Vr ltac:(lia)) as (W & rk & EW & PW & _). rewrite <- sais_count_same, E4 in EW. cbn [rmap bind fst] in EW. injection EW as ->. rewrite map_length, (Permutation_length PW), seq_length. exact Lr. }
    rewrite induce_count_eq in E. destruct (induce maxv str ts lms (rev order)) as [sa2| | |]; try discriminate. cbn [rmap bind fst snd] in E. fold n in E. injection E as <- <- <-. rewrite rev_length.
    split; [lia|]. split; [discriminate|]. split; [reflexivity|]. split; [|split; [|split]].
    + intros [|i] I; cbn [length] in I; cbn [nth]. * destruct sz; [congruence|]. cbn [hd nth] in *. lia. * apply S3. lia.
    + cbn [length Nat.pow]. lia.
    + cbn [fold_right]. lia.
    + constructor; auto.
Qed.

(** ** The LCP array *)
Lemma compare_same : forall fuel s li ri m, rmap fst (compare_lcp_count fuel s li ri m) = compare_lcp fuel s li ri m.
Proof.
  induction fuel as [|fuel IH]; intros; [reflexivity|]. cbn [compare_lcp_count compare_lcp]. destruct (Nat.max li ri <? length s); [|reflexivity]. destruct (lget s li); try reflexivity. cbn [bind]. destruct (lget s ri); try reflexivity. cbn [bind].
  destruct (_ =? _)%N; [|reflexivity]. rewrite <- IH. destruct (compare_lcp_count fuel s (S li) (S ri) (S m)); reflexivity.
Qed.
Lemma compare_cost : forall fuel s li ri m x c, compare_lcp_count fuel s li ri m = Ok (x, c) -> c + m <= S x /\ m <= x /\ (m < x -> li + (x - m) <= length s).
Proof.
  induction fuel as [|fuel IH]; intros s li ri m x c E; [discriminate|]. cbn [compare_lcp_count] in E. destruct (Nat.ltb_spec (Nat.max li ri) (length s)) as [L|L]; [|injection E as <- <-; lia].
  apply bind_Ok_inv in E. destruct E as (a & _ & E). apply bind_Ok_inv in E. destruct E as (b & _ & E). destruct (a =? b)%N; [|injection E as <- <-; lia].
  apply bind_Ok_inv in E. destruct E as ([x1 c1] & E1 & E). injection E as <- <-. cbn [fst snd]. apply IH in E1. destruct E1 as (A & B & C). split; [lia|]. split; [lia|]. intros _. destruct (Nat.eq_dec x1 (S m)); lia.
Qed.
Lemma lcp_step_same : forall s sa inv lcp prev c i, rmap fst (lcp_step_count s sa inv (lcp, prev, c) i) = lcp_step s sa inv (lcp, prev) i.
Proof.
  intros. cbn [lcp_step_count lcp_step]. destruct (lget inv i) as [pos| | |]; try reflexivity. cbn [bind]. destruct (pos =? length inv - 1).
  - cbn [bind fst snd]. destruct (lset lcp pos 0); reflexivity.
  - destruct (fv_get sa (pos + 1)) as [r| | |]; try reflexivity. cbn [bind]. cbv zeta. rewrite <- compare_same. destruct (compare_lcp_count _ _ _ _ _) as [[x cx]| | |]; try reflexivity. cbn [rmap bind fst snd]. destruct (lset lcp pos x); reflexivity.
Qed.
Lemma lcp_loop_same : forall s sa inv l lcp prev c, rmap fst (foldM (lcp_step_count s sa inv) l (lcp, prev, c)) = foldM (lcp_step s sa inv) l (lcp, prev).
Proof.
  induction l as [|x l IH]; intros; [reflexivity|]. cbn [foldM]. rewrite <- (lcp_step_same s sa inv lcp prev c x). destruct (lcp_step_count s sa inv (lcp, prev, c) x) as [[[l1 p1] c1]| | |]; try reflexivity. cbn [rmap bind fst]. apply IH.
Qed.
Lemma build_lcp_same : forall s sa, rmap fst (build_lcp_count s sa) = build_lcp s sa.
Proof.
  intros. unfold build_lcp_count, build_lcp. destruct (invert_sa sa) as [inv| | |]; try reflexivity. cbn [bind]. rewrite <- (lcp_loop_same s sa inv (seq 0 (length inv)) (repeat 0 (fv_size sa)) 0 0).
  destruct (foldM (lcp_step_count s sa inv) (seq 0 (length inv)) (repeat 0 (fv_size sa), 0, 0)) as [[[l p] c]| | |]; try reflexivity. cbn [rmap bind fst snd]. destruct (fv_of_list (map N.of_nat l)) as [v| | |]; try reflexivity. cbn [bind].
  destruct (lget l (fv_size sa / 2)); reflexivity.
Qed.

(** [r] is the only index whose entry is the last place *)
Lemma lcp_cost : forall s sa inv r k lcp prev c lcp0, length inv = length s -> (forall i, i < length s -> nth i inv 0 = length s - 1 -> i = r) -> k <= length s ->
  foldM (lcp_step_count s sa inv) (seq 0 k) (lcp0, 0, 0) = Ok (lcp, prev, c) -> c <= 2 * k + prev + (if r <? k then length s else 0) /\ prev + k <= S (length s) /\ (k = 0 -> prev = 0).
Proof.
  intros s sa inv r. induction k as [|k IH]; intros lcp prev c lcp0 L HR K E.
  - cbn [seq foldM] in E. injection E as <- <- <-. lia.
  - rewrite seq_S, foldM_app in E. apply bind_Ok_inv in E. destruct E as ([[l1 p1] c1] & E1 & E). cbn [Nat.add foldM] in E. destruct (IH _ _ _ _ L HR ltac:(lia) E1) as (A & B & Z). clear IH E1.
    apply bind_Ok_inv in E. destruct E as ([[l2 p2] c2] & E & E'). injection E' as <- <- <-. cbn [lcp_step_count] in E. apply bind_Ok_inv in E. destruct E as (pos & Ep & E). rewrite (lget_nth _ _ k 0) in Ep by lia. injection Ep as Ep.
    apply bind_Ok_inv in E. destruct E as ([x cx] & Ex & E). apply bind_Ok_inv in E. destruct E as (l3 & _ & E). injection E as <- <- <-. cbn [fst snd] in *. rewrite L in Ex.
    destruct (Nat.eqb_spec pos (length s - 1)) as [Q|Q].
    + injection Ex as <- <-. assert (R : k = r) by (apply HR; [lia|congruence]). destruct (Nat.ltb_spec r k); [lia|]. destruct (Nat.ltb_spec r (S k)); [|lia]. lia.
    + apply bind_Ok_inv in Ex. destruct Ex as (y & _ & Ex). cbv zeta in Ex. apply compare_cost in Ex. destruct Ex as (X1 & X2 & X3).
      assert (H : p1 <= (if 1 <? p1 then p1 - 1 else 0) + 1 /\ (if 1 <? p1 then p1 - 1 else 0) + 1 <= S p1 /\ (2 <= p1 -> (if 1 <? p1 then p1 - 1 else 0) = p1 - 1)) by (destruct (Nat.ltb_spec 1 p1); lia).
      set (h := if 1 <? p1 then p1 - 1 else 0) in *. assert (MN : (if r <? k then length s else 0) <= (if r <? S k then length s else 0)) by (destruct (Nat.ltb_spec r k), (Nat.ltb_spec r (S k)); lia).
      split; [lia|]. split; [|lia]. destruct (le_lt_dec x h) as [XH|XH]; [|lia].
      assert (h = 0 \/ h = p1 - 1 /\ 2 <= p1) by (unfold h; destruct (Nat.ltb_spec 1 p1); lia). lia.
Qed.

(** ** The constructor *)
Lemma suffix_array_same : forall s, rmap (fun r => fst (fst (fst r))) (suffix_array_count s) = suffix_array s.
Proof.
  intros. unfold suffix_array_count, suffix_array, build_sa. rewrite <- sais_count_same. destruct (sais_count (S (length s)) (sais_str s) 255) as [[[sa k] sizes]| | |]; try reflexivity. cbn [rmap bind fst snd].
  destruct (mapM _ sa) as [sa1| | |]; try reflexivity. cbn [bind]. destruct (fv_of_list (tl sa1)) as [v| | |]; try reflexivity. cbn [bind]. rewrite <- build_lcp_same. destruct (build_lcp_count s v) as [[w c]| | |]; reflexivity.
Qed.

Theorem suffix_array_cost : forall s, s <> [] -> Forall (fun c => (0 < c < 128)%N) s -> (N.of_nat (length s) < 2 ^ 31)%N ->
  exists sa lcp k sizes c, suffix_array_count s = Ok (sa, lcp, k, sizes, c) /\ suffix_array s = Ok (sa, lcp) /\
    k <= 31 * length s + 1055 /\ c <= 3 * length s + 1 /\
    hd 0 sizes = S (length s) /\ (forall i, S i < length sizes -> 2 * nth (S i) sizes 0 <= nth i sizes 0) /\ fold_right Nat.add 0 sizes <= 2 * S (length s) /\ 2 ^ length sizes <= S (length s).
Proof.
  intros s NE F B. destruct (ctor_ok s NE F B) as (sa & lcp & l & a & E & EL & P & _). pose proof (suffix_array_same s) as Q. rewrite E in Q. apply rmap_Ok in Q. destruct Q as ([[[[sa1 lcp1] k] sizes] c] & Q & X). cbn [fst] in X. injection X as <- <-.
  exists sa, lcp, k, sizes, c. split; [exact Q|]. split; [exact E|]. unfold suffix_array_count in Q. rewrite (sais_str_low s F) in Q.
  apply bind_Ok_inv in Q. destruct Q as ([[sa0 k0] sizes0] & Q1 & Q). apply bind_Ok_inv in Q. destruct Q as (sa2 & _ & Q). apply bind_Ok_inv in Q. destruct Q as (v & _ & Q). apply bind_Ok_inv in Q. destruct Q as ([w c1] & Q2 & Q).
  cbn [fst snd] in Q. injection Q as -> -> -> -> ->.
  pose proof (val_s s NE F B) as V. pose proof (len_str s B) as LS. assert (LE : length (s ++ [0%N]) <= S (length s)) by lia. destruct (sais_cost _ _ _ _ _ _ V LE Q1) as (K & S1 & S2 & S3 & S4 & S5 & _). rewrite LS in *.
  split; [lia|]. split; [|auto].
  unfold build_lcp_count in Q2. apply bind_Ok_inv in Q2. destruct Q2 as (inv & EI & Q2). apply bind_Ok_inv in Q2. destruct Q2 as ([[l1 p1] c1] & Q3 & Q2). apply bind_Ok_inv in Q2. destruct Q2 as (v1 & _ & Q2). apply bind_Ok_inv in Q2. destruct Q2 as (v2 & _ & Q2).
  cbn [fst snd] in Q2. injection Q2 as -> ->.
  assert (Hh : holds sa l).
  { unfold fv_list in EL. pose proof (mapM_len _ _ _ _ _ EL) as LL. rewrite seq_length, map_length in LL. split; [lia|]. intros p Hp.
    assert (G : forall b a (r : list N), mapM (fv_get sa) (seq a b) = Ok r -> forall i, i < b -> fv_get sa (a + i) = Ok (nth i r 0%N)).
    { clear. induction b as [|b IH]; intros a r E i I; [lia|]. cbn [seq mapM] in E. apply bind_Ok_inv in E. destruct E as (y & Ey & E). apply bind_Ok_inv in E. destruct E as (ys & Eys & E). injection E as <-.
      destruct i as [|i]; cbn [nth]; [rewrite Nat.add_0_r; exact Ey|]. replace (a + S i) with (S a + i) by lia. apply IH; auto. lia. }
    assert (G0 := G _ _ _ EL p ltac:(lia)). cbn [Nat.add] in G0. rewrite G0. f_equal. change 0%N with (N.of_nat 0). apply map_nth. }
  destruct (invert_ok s sa l Hh P) as (inv' & EI' & LI & VI). rewrite EI in EI'. injection EI' as <-.
  rewrite LI in Q3. assert (HR : forall i, i < length s -> nth i inv 0 = length s - 1 -> i = nth (length s - 1) l 0).
  { intros i I H. destruct (l_surj s l P i I) as (p & Hp & <-). rewrite (VI p Hp) in H. congruence. }
  destruct (lcp_cost s sa inv (nth (length s - 1) l 0) (length s) _ _ _ _ LI HR (le_n _) Q3) as (C & C' & _). destruct (_ <? _); lia.
Qed.
