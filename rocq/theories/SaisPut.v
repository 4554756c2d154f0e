(** SA-IS: the types of the positions, the buckets and the three phases of the induced sorting. *)
From Coq Require Import List NArith ZArith Arith Bool Lia Permutation Sorted.
From Verif Require Import Base SuffixModel SaisRows.
Import ListNotations.
Local Open Scope nat_scope.

Lemma classified_length : forall str, length (classified str) = length str.
Proof. induction str as [|c [|d rest] IH]; [reflexivity|reflexivity|]. change (classified (c :: d :: rest)) with ((if (c =? d)%N then hd true (classified (d :: rest)) else (c <? d)%N) :: classified (d :: rest)). cbn [length] in *. rewrite IH. reflexivity. Qed.
Lemma classified_step : forall str i, S i < length str -> nth i (classified str) true = if (nth i str 0 =? nth (S i) str 0)%N then nth (S i) (classified str) true else (nth i str 0 <? nth (S i) str 0)%N.
Proof.
  induction str as [|c [|d rest] IH]; intros i H; [cbn [length] in H; lia|cbn [length] in H; lia|].
  change (classified (c :: d :: rest)) with ((if (c =? d)%N then hd true (classified (d :: rest)) else (c <? d)%N) :: classified (d :: rest)).
  destruct i as [|i]. - cbn [nth]. destruct (c =? d)%N; [|reflexivity]. destruct (classified (d :: rest)); reflexivity.
  - cbn [nth]. cbn [length] in H. apply (IH i). cbn [length]. lia.
Qed.
Lemma classified_last : forall str, str <> [] -> nth (length str - 1) (classified str) false = true.
Proof.
  induction str as [|c [|d rest] IH]; intros H; [congruence|reflexivity|].
  change (classified (c :: d :: rest)) with ((if (c =? d)%N then hd true (classified (d :: rest)) else (c <? d)%N) :: classified (d :: rest)).
  cbn [length]. replace (S (S (length rest)) - 1) with (S (length rest)) by lia. cbn [nth]. cbn [length] in IH. rewrite Nat.sub_succ, Nat.sub_0_r in IH. apply IH. discriminate.
Qed.

(** a string ended by a zero, all characters up to [maxv] *)
Record ended (str : list N) (maxv : nat) : Prop := {
  e_len : 2 <= length str;
  e_last : nth (length str - 1) str 1%N = 0%N;
  e_max : forall i, i < length str -> (nth i str 0 <= N.of_nat maxv)%N
}.
(** a string ended by its only zero, all characters up to [maxv] *)
Record valid (str : list N) (maxv : nat) : Prop := {
  v_len : 2 <= length str;
  v_last : nth (length str - 1) str 1%N = 0%N;
  v_pos : forall i, i < length str - 1 -> (0 < nth i str 0)%N;
  v_max : forall i, i < length str -> (nth i str 0 <= N.of_nat maxv)%N
}.
Coercion valid_ended (str : list N) (maxv : nat) (H : valid str maxv) : ended str maxv := {| e_len := v_len _ _ H; e_last := v_last _ _ H; e_max := v_max _ _ H |}.
#[global] Hint Resolve valid_ended : core.

Section Str.
Variables (str : list N) (maxv : nat).
Hypothesis HV : ended str maxv.
Let n := length str.
Let m := S maxv.
Definition ch (i : nat) : nat := N.to_nat (nth i str 0%N).
Definition ty (i : nat) : bool := nth i (classified str) true.
Definition lmsb (i : nat) : bool := is_lms (classified str) i.
Definition cnt (c : nat) : nat := length (filter (fun i => ch i =? c) (seq 0 n)).

Lemma n2 : 2 <= n.
Proof using HV. apply HV. Qed.
Lemma ch_lt : forall i, i < n -> ch i < m.
Proof using HV. intros i H. unfold ch, m. pose proof (e_max _ _ HV i H). lia. Qed.
Lemma ch_last : ch (n - 1) = 0.
Proof using HV. unfold ch. pose proof n2. pose proof (e_last _ _ HV) as H0. rewrite nth_indep with (d' := 1%N) by (unfold n in *; lia). unfold n in *. rewrite H0. reflexivity. Qed.
Lemma ts_len : length (classified str) = n.
Proof using HV. apply classified_length. Qed.
Lemma ty_last : ty (n - 1) = true.
Proof using HV. pose proof n2. unfold ty. rewrite nth_indep with (d' := false) by (rewrite ts_len; lia). apply classified_last. unfold n in H. destruct str; [cbn [length] in H; lia|discriminate]. Qed.
Lemma ty_step : forall i, S i < n -> ty i = if ch i =? ch (S i) then ty (S i) else ch i <? ch (S i).
Proof using HV.
  intros i H. unfold ty. rewrite classified_step by exact H. unfold ch. destruct (N.eqb_spec (nth i str 0%N) (nth (S i) str 0%N)) as [->|E].
  - rewrite Nat.eqb_refl. reflexivity.
  - destruct (Nat.eqb_spec (N.to_nat (nth i str 0%N)) (N.to_nat (nth (S i) str 0%N))); [lia|]. destruct (N.ltb_spec (nth i str 0%N) (nth (S i) str 0%N)), (Nat.ltb_spec (N.to_nat (nth i str 0%N)) (N.to_nat (nth (S i) str 0%N))); auto; lia.
Qed.
Lemma L_lt : forall i, i < n -> ty i = false -> S i < n.
Proof using HV. intros i H E. destruct (Nat.eq_dec i (n - 1)) as [->|]; [rewrite ty_last in E; discriminate|lia]. Qed.
Lemma L_step : forall i, i < n -> ty i = false -> S i < n /\ (ch (S i) < ch i \/ (ch (S i) = ch i /\ ty (S i) = false)).
Proof using HV.
  intros i H E. pose proof (L_lt i H E) as H'. split; auto. rewrite ty_step in E by auto. destruct (Nat.eqb_spec (ch i) (ch (S i))); [right; auto|]. apply Nat.ltb_ge in E. left. lia.
Qed.
Lemma S_step : forall i, S i < n -> ty i = true -> ch i < ch (S i) \/ (ch (S i) = ch i /\ ty (S i) = true).
Proof using HV.
  intros i H E. rewrite ty_step in E by auto. destruct (Nat.eqb_spec (ch i) (ch (S i))); [right; auto|]. apply Nat.ltb_lt in E. left. lia.
Qed.
Lemma lmsb_spec : forall i, lmsb i = true <-> 1 <= i /\ i < n /\ ty (i - 1) = false /\ ty i = true.
Proof using HV.
  intros [|i]; unfold lmsb, is_lms, ty; [split; [discriminate|lia]|]. rewrite Nat.sub_succ, Nat.sub_0_r. rewrite andb_true_iff, negb_true_iff. split.
  - intros [A B]. assert (H : S i < n). { rewrite <- ts_len. destruct (lt_dec (S i) (length (classified str))); auto. rewrite nth_overflow in B by lia. discriminate. }
    split; [lia|]. split; [auto|]. split; auto. rewrite <- B. apply nth_indep. rewrite ts_len. auto.
  - intros (_ & H & A & B). split; auto. rewrite <- B. apply nth_indep. rewrite ts_len. auto.
Qed.
Lemma succ_L : forall p, p < n -> ty p = false -> S p < n /\ (ty (S p) = false \/ lmsb (S p) = true).
Proof using HV.
  intros p H E. pose proof (L_lt p H E). split; auto. destruct (ty (S p)) eqn:Q; [right|left; auto]. apply lmsb_spec. rewrite Nat.sub_succ, Nat.sub_0_r. auto with arith.
Qed.

(** ** Counting *)
Lemma cnt_occ : forall c, cnt c = length (filter (fun x => N.to_nat x =? c) str).
Proof using HV.
  intros c. unfold cnt, ch, n. generalize str. clear. intros l. rewrite <- (map_length (fun i => nth i l 0%N)).
  assert (E : forall a, map (fun i => nth i l 0%N) (filter (fun i => N.to_nat (nth i l 0%N) =? c) a) = filter (fun x => N.to_nat x =? c) (map (fun i => nth i l 0%N) a)).
  { induction a as [|x a IH]; [reflexivity|]. cbn [filter map]. destruct (_ =? _); cbn [map]; rewrite IH; reflexivity. }
  rewrite E. do 2 f_equal. clear E. apply nth_ext with (d := 0%N) (d' := 0%N); [now rewrite map_length, seq_length|]. intros i H. rewrite map_length, seq_length in H.
  rewrite nth_map_seq by auto. reflexivity.
Qed.
Lemma sum_single : forall x k, list_sum (map (fun c => if x =? c then 1 else 0) (seq 0 k)) = if x <? k then 1 else 0.
Proof using HV.
  intros x. induction k as [|k IH]; [reflexivity|]. rewrite seq_S, map_app, list_sum_app, IH. cbn [map Nat.add list_sum fold_right]. destruct (Nat.ltb_spec x k), (Nat.eqb_spec x k), (Nat.ltb_spec x (S k)); lia.
Qed.
Lemma sum_add : forall (f g : nat -> nat) l, list_sum (map (fun c => f c + g c) l) = list_sum (map f l) + list_sum (map g l).
Proof using HV. intros f g. induction l as [|x l IH]; [reflexivity|]. cbn [map]. change (list_sum (?a :: ?b)) with (a + list_sum b) in *. cbn [list_sum fold_right] in *. unfold list_sum in *. lia. Qed.
Lemma sum_ext : forall (f g : nat -> nat) l, (forall c, f c = g c) -> list_sum (map f l) = list_sum (map g l).
Proof using HV. intros. f_equal. apply map_ext. auto. Qed.
Lemma start_m : start cnt m = n.
Proof using HV.
  unfold start. assert (G : forall a, (forall i, In i a -> ch i < m) -> list_sum (map (fun c => length (filter (fun i => ch i =? c) a)) (seq 0 m)) = length a).
  { induction a as [|x a IH]; intros H. - cbn [filter length]. induction (seq 0 m); auto.
    - cbn [filter length]. rewrite (sum_ext _ (fun c => (if ch x =? c then 1 else 0) + length (filter (fun i => ch i =? c) a))) by (intros c; destruct (_ =? _); reflexivity).
      rewrite sum_add, sum_single, IH by (intros; apply H; right; auto). destruct (Nat.ltb_spec (ch x) m) as [|B]; [reflexivity|]. specialize (H x (or_introl eq_refl)). lia. }
  transitivity (length (seq 0 n)); [|apply seq_length]. apply G. intros i I. apply in_seq in I. apply ch_lt. lia.
Qed.
Lemma cap : forall c l, NoDup l -> (forall p, In p l -> p < n /\ ch p = c) -> length l <= cnt c.
Proof using HV.
  intros c l N H. unfold cnt. apply NoDup_incl_length; auto. intros p P. apply filter_In. destruct (H p P). split; [apply in_seq; lia|]. now apply Nat.eqb_eq.
Qed.

Definition bucket_at (c nl ns : nat) : bucket := {| bk_index := start cnt c; bk_count := cnt c; bk_l := start cnt c + nl; bk_s := (Z.of_nat (start cnt c + cnt c) - 1 - Z.of_nat ns)%Z |}.

Lemma count_ok : forall l a, length a = m -> (forall x, In x l -> N.to_nat x < m) ->
  exists a', foldM (fun l c => do n <- cget l c; cset l c (S n)) l a = Ok a' /\ length a' = m /\ forall c, nth c a' 0 = nth c a 0 + (if c <? m then length (filter (fun x => N.to_nat x =? c) l) else 0).
Proof using HV.
  induction l as [|x l IH]; intros a La H.
  - exists a. split; [reflexivity|]. split; auto. intros c. cbn [filter length]. destruct (c <? m); lia.
  - cbn [foldM]. assert (Hx := H x (or_introl eq_refl)). unfold cget, cset. rewrite La. destruct (N.ltb_spec x (N.of_nat m)) as [_|B]; [|lia].
    rewrite (lget_nth _ _ _ 0) by lia. cbn [bind]. rewrite lset_Ok by lia. cbn [bind].
    destruct (IH (upd a (N.to_nat x) (S (nth (N.to_nat x) a 0)))) as (a' & E & L' & V); [now rewrite upd_length|intros; apply H; right; auto|].
    exists a'. split; [exact E|]. split; auto. intros c. rewrite V, nth_upd, La. cbn [filter]. rewrite (Nat.eqb_sym (N.to_nat x) c).
    destruct (Nat.eqb_spec c (N.to_nat x)) as [->|]; cbn [andb]; [|reflexivity]. destruct (Nat.ltb_spec (N.to_nat x) m); cbn [length]; lia.
Qed.
Lemma place_nth : forall counts st c, c < length counts -> nth_error (place_buckets counts st) c = Some
  {| bk_index := st + list_sum (firstn c counts); bk_count := nth c counts 0; bk_l := st + list_sum (firstn c counts); bk_s := (Z.of_nat (st + list_sum (firstn c counts) + nth c counts 0%nat) - 1)%Z |}.
Proof using HV.
  induction counts as [|k counts IH]; intros st c H; [cbn [length] in H; lia|]. destruct c as [|c].
  - cbn [place_buckets nth_error firstn nth]. change (list_sum []) with 0. rewrite Nat.add_0_r. reflexivity.
  - cbn [length] in H. cbn [place_buckets nth_error firstn nth]. rewrite IH by lia. change (list_sum (k :: firstn c counts)) with (k + list_sum (firstn c counts)). rewrite Nat.add_assoc. reflexivity.
Qed.
Lemma place_length : forall counts st, length (place_buckets counts st) = length counts.
Proof using HV. induction counts; intros; cbn [place_buckets length]; auto. Qed.
Lemma buckets_ok : exists bs, make_buckets str maxv = Ok bs /\ length bs = m /\ forall c, c < m -> nth_error bs c = Some (bucket_at c 0 0).
Proof using HV.
  unfold make_buckets, count_chars. destruct (count_ok str (repeat 0 m)) as (a & E & La & V). { apply repeat_length. }
  { intros x X. destruct (In_nth str x 0%N X) as (i & Hi & <-). apply (ch_lt i Hi). }
  fold m. rewrite E. cbn [bind]. eexists. split; [reflexivity|]. split; [rewrite place_length; exact La|]. intros c H. rewrite place_nth by lia.
  assert (Ea : a = map cnt (seq 0 m)).
  { apply nth_ext with (d := 0) (d' := 0); [now rewrite map_length, seq_length|]. intros i Hi. rewrite La in Hi. rewrite V. rewrite nth_map_seq, cnt_occ by auto.
    destruct (Nat.ltb_spec i m); [|lia]. rewrite nth_repeat_lt by auto. reflexivity. }
  assert (N1 : nth c a 0 = cnt c). { rewrite Ea. apply nth_map_seq. auto. }
  assert (N2 : list_sum (firstn c a) = start cnt c). { rewrite Ea, firstn_map, (seq_split m c H). rewrite firstn_app, seq_length, Nat.sub_diag. cbn [firstn]. rewrite app_nil_r, firstn_all2 by (rewrite seq_length; lia). reflexivity. }
  rewrite N1, N2. unfold bucket_at. cbn [Nat.add]. do 2 f_equal. all: lia.
Qed.

(** ** The state: what has been put from the left and from the right of each bucket *)
Definition cells (Lq Sq : nat -> list nat) (c : nat) : list (option nat) := row (Lq c) (Sq c) (cnt c).
Definition pic (Lq Sq : nat -> list nat) : list (option nat) := flat m (cells Lq Sq).
Record St (z : bool) (bs : list bucket) (sa : list (option nat)) (Lq Sq : nat -> list nat) : Prop := {
  st_sa : sa = pic Lq Sq;
  st_len : length bs = m;
  st_bs : forall c, c < m -> (z = true -> c <> 0) -> nth_error bs c = Some (bucket_at c (length (Lq c)) (length (Sq c)));
  st_cap : forall c, c < m -> length (Lq c) + length (Sq c) <= cnt c
}.
Lemma cells_fit : forall Lq Sq, (forall c, c < m -> length (Lq c) + length (Sq c) <= cnt c) -> fits cnt m (cells Lq Sq).
Proof using HV. intros Lq Sq H c C. unfold cells. apply row_length. auto. Qed.
Lemma pic_length : forall Lq Sq, (forall c, c < m -> length (Lq c) + length (Sq c) <= cnt c) -> length (pic Lq Sq) = n.
Proof using HV. intros. unfold pic. rewrite (flat_length cnt) by (apply cells_fit; auto). apply start_m. Qed.
Lemma St_ext : forall z bs sa Lq Sq Lq' Sq', St z bs sa Lq Sq -> (forall c, c < m -> Lq' c = Lq c) -> (forall c, c < m -> Sq' c = Sq c) -> St z bs sa Lq' Sq'.
Proof using HV.
  intros z bs sa Lq Sq Lq' Sq' [A B C D] EL ES. split; auto.
  - rewrite A. unfold pic. apply flat_ext. intros c H. unfold cells. rewrite EL, ES by auto. reflexivity.
  - intros c H Z. rewrite EL, ES by auto. auto.
  - intros c H. rewrite EL, ES by auto. auto.
Qed.
Definition putf (f : nat -> list nat) (c : nat) (l : list nat) : nat -> list nat := fun d => if d =? c then l else f d.
Definition keeps (sa sa' : list (option nat)) : Prop := forall j p, nth_error sa j = Some (Some p) -> nth_error sa' j = Some (Some p).

Lemma upd_keeps : forall sa i x, nth i sa (Some 0) = None -> keeps sa (upd sa i x).
Proof using HV.
  intros sa i x H j p E. rewrite nth_error_upd. destruct (Nat.eqb_spec j i) as [->|]; [|exact E]. apply nth_error_nth with (d := Some 0) in E. congruence.
Qed.
Lemma put_left : forall z bs sa Lq Sq x id, St z bs sa Lq Sq -> N.to_nat x < m -> (z = true -> N.to_nat x <> 0) -> length (Lq (N.to_nat x)) + length (Sq (N.to_nat x)) < cnt (N.to_nat x) ->
  exists bs' sa' pos, put_bucket bs sa false x id = Ok (bs', sa', pos) /\ St z bs' sa' (putf Lq (N.to_nat x) (Lq (N.to_nat x) ++ [id])) Sq /\ keeps sa sa'.
Proof using HV.
  intros z bs sa Lq Sq x id [A B C D] Hx Hz Hc. set (c := N.to_nat x) in *. unfold put_bucket, cget. rewrite B. destruct (N.ltb_spec x (N.of_nat m)) as [_|Q]; [|unfold c in Hx; lia].
  fold c. unfold lget. rewrite C by auto. cbn [bind].
  assert (F : bk_full (bucket_at c (length (Lq c)) (length (Sq c))) = false). { unfold bk_full, bucket_at. cbn [bk_count bk_s bk_l]. destruct (Nat.eqb_spec (cnt c) 0); [lia|]. cbn [orb]. apply andb_false_iff. right. apply Z.ltb_ge. lia. }
  rewrite F. pose proof (cells_fit Lq Sq D) as Fit. pose proof (start_mono cnt (S c) m ltac:(lia)) as SM. rewrite start_S, start_m in SM.
  assert (LS : length sa = n) by (rewrite A; apply pic_length; auto).
  unfold bucket_at. cbn [bk_l bk_s bk_index bk_count]. rewrite lset_Ok by lia. cbn [bind]. unfold cset. rewrite B. destruct (N.ltb_spec x (N.of_nat m)) as [_|Q]; [|unfold c in Hx; lia]. fold c. rewrite lset_Ok by lia. cbn [bind].
  eexists. eexists. eexists. split; [reflexivity|]. destruct (row_put_l (Lq c) (Sq c) (cnt c) id Hc) as [R1 R2]. split; [split|].
  - rewrite A. unfold pic. apply flat_upd with (cnt := cnt); auto; [lia| |].
    + unfold cells, putf. rewrite Nat.eqb_refl. symmetry. exact R1.
    + intros d Hd Nd. unfold cells, putf. destruct (Nat.eqb_spec d c); [lia|]. reflexivity.
  - rewrite upd_length. exact B.
  - intros d Hd Zd. rewrite nth_error_upd. unfold putf. destruct (Nat.eqb_spec d c) as [->|]; cbn [andb]; [|auto]. rewrite B. destruct (Nat.ltb_spec c m); [|lia]. unfold bucket_at. rewrite app_length. cbn [length]. do 2 f_equal. lia.
  - intros d Hd. unfold putf. destruct (Nat.eqb_spec d c) as [->|]; auto. rewrite app_length. cbn [length]. lia.
  - apply upd_keeps. rewrite A. unfold pic. rewrite (flat_nth cnt) by (auto; lia). exact R2.
Qed.
Lemma put_right : forall z bs sa Lq Sq x id, St z bs sa Lq Sq -> N.to_nat x < m -> (z = true -> N.to_nat x <> 0) -> length (Lq (N.to_nat x)) + length (Sq (N.to_nat x)) < cnt (N.to_nat x) ->
  exists bs' sa' pos, put_bucket bs sa true x id = Ok (bs', sa', pos) /\ St z bs' sa' Lq (putf Sq (N.to_nat x) (id :: Sq (N.to_nat x))) /\ keeps sa sa' /\ nth_error sa' pos = Some (Some id).
Proof using HV.
  intros z bs sa Lq Sq x id [A B C D] Hx Hz Hc. set (c := N.to_nat x) in *. unfold put_bucket, cget. rewrite B. destruct (N.ltb_spec x (N.of_nat m)) as [_|Q]; [|unfold c in Hx; lia].
  fold c. unfold lget. rewrite C by auto. cbn [bind].
  assert (F : bk_full (bucket_at c (length (Lq c)) (length (Sq c))) = false). { unfold bk_full, bucket_at. cbn [bk_count bk_s bk_l]. destruct (Nat.eqb_spec (cnt c) 0); [lia|]. cbn [orb]. apply andb_false_iff. right. apply Z.ltb_ge. lia. }
  rewrite F. pose proof (cells_fit Lq Sq D) as Fit. pose proof (start_mono cnt (S c) m ltac:(lia)) as SM. rewrite start_S, start_m in SM.
  assert (LS : length sa = n) by (rewrite A; apply pic_length; auto).
  unfold bucket_at. cbn [bk_l bk_s bk_index bk_count].
  assert (P : Z.to_nat (Z.of_nat (start cnt c + cnt c) - 1 - Z.of_nat (length (Sq c))) = start cnt c + (cnt c - 1 - length (Sq c))) by lia.
  destruct (Z.ltb_spec (Z.of_nat (start cnt c + cnt c) - 1 - Z.of_nat (length (Sq c))) 0) as [Q|_]; [lia|]. rewrite P.
  rewrite lset_Ok by lia. cbn [bind]. unfold cset. rewrite B. destruct (N.ltb_spec x (N.of_nat m)) as [_|Q]; [|unfold c in Hx; lia]. fold c. rewrite lset_Ok by lia. cbn [bind].
  eexists. eexists. eexists. split; [reflexivity|]. destruct (row_put_s (Lq c) (Sq c) (cnt c) id Hc) as [R1 R2]. split; [split|split].
  - rewrite A. unfold pic. apply flat_upd with (cnt := cnt); auto; [lia| |].
    + unfold cells, putf. rewrite Nat.eqb_refl. symmetry. exact R1.
    + intros d Hd Nd. unfold cells, putf. destruct (Nat.eqb_spec d c); [lia|]. reflexivity.
  - rewrite upd_length. exact B.
  - intros d Hd Zd. rewrite nth_error_upd. unfold putf. destruct (Nat.eqb_spec d c) as [->|]; cbn [andb]; [|auto]. rewrite B. destruct (Nat.ltb_spec c m); [|lia]. unfold bucket_at. cbn [length]. do 2 f_equal. lia.
  - intros d Hd. unfold putf. destruct (Nat.eqb_spec d c) as [->|]; auto. cbn [length]. lia.
  - apply upd_keeps. rewrite A. unfold pic. rewrite (flat_nth cnt) by (auto; lia). exact R2.
  - rewrite nth_error_upd, Nat.eqb_refl. cbn [andb]. destruct (Nat.ltb_spec (start cnt c + (cnt c - 1 - length (Sq c))) (length sa)); [reflexivity|lia].
Qed.
End Str.

Section Valid.
Variables (str : list N) (maxv : nat).
Hypothesis HV : valid str maxv.
Lemma ch_pos : forall i, i < (length str) - 1 -> 0 < ch str i.
Proof using HV. intros i H. unfold ch. pose proof (v_pos _ _ HV i H). lia. Qed.
Lemma ch_zero : forall i, i < (length str) -> ch str i = 0 -> i = (length str) - 1.
Proof using HV. intros i H E. destruct (Nat.eq_dec i ((length str) - 1)); auto. pose proof (ch_pos i). lia. Qed.
Lemma lms_last : lmsb str ((length str) - 1) = true.
Proof using HV.
  pose proof (n2 str maxv HV). apply (lmsb_spec str maxv HV). split; [lia|]. split; [lia|]. split; [|apply (ty_last str maxv HV)]. rewrite (ty_step str maxv HV) by lia. replace (S ((length str) - 1 - 1)) with ((length str) - 1) by lia. rewrite (ch_last str maxv HV).
  pose proof (ch_pos ((length str) - 1 - 1)). destruct (Nat.eqb_spec (ch str ((length str) - 1 - 1)) 0); [lia|]. apply Nat.ltb_ge. lia.
Qed.
Lemma cnt_zero : cnt str 0 = 1.
Proof using HV.
  unfold cnt. pose proof (n2 str maxv HV) as H. rewrite (seq_split (length str) ((length str) - 1)) by lia. replace ((length str) - S ((length str) - 1)) with 0 by lia. cbn [seq]. rewrite filter_app. cbn [filter]. rewrite (ch_last str maxv HV). cbn [Nat.eqb].
  assert (E : filter (fun i => ch str i =? 0) (seq 0 ((length str) - 1)) = []); [|rewrite E; reflexivity].
  assert (G : forall i, In i (seq 0 ((length str) - 1)) -> ch str i <> 0) by (intros i I; apply in_seq in I; pose proof (ch_pos i); lia). induction (seq 0 ((length str) - 1)) as [|x l IH]; [reflexivity|]. cbn [filter].
  destruct (Nat.eqb_spec (ch str x) 0); [exfalso; apply (G x); [left; auto|auto]|]. apply IH. intros; apply G; right; auto.
Qed.
End Valid.
