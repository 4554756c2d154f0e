(** SA-IS: it completes on every string; when its result is sorted. *)
From Coq Require Import List NArith ZArith Arith Bool Lia Permutation Sorted.
From Verif Require Import Base Spec5 SuffixModel LcpProof SaisRows SaisPut SaisInduce SaisKey SaisOrder SaisName.
Import ListNotations.
Local Open Scope nat_scope.

(** the place of an element in a list *)
Fixpoint index (x : nat) (l : list nat) : nat := match l with [] => 0 | y :: l => if x =? y then 0 else S (index x l) end.
Lemma index_sorted : forall l, NoDup l -> StronglySorted (fun p q => (N.of_nat (index p l) < N.of_nat (index q l))%N) l.
Proof.
  induction 1 as [|x l Nx ND IH]; constructor.
  - apply ss_ext with (2 := IH). intros p q P Q L. cbn [index]. destruct (Nat.eqb_spec p x) as [->|]; [contradiction|]. destruct (Nat.eqb_spec q x) as [->|]; [contradiction|]. lia.
  - apply Forall_forall. intros q Q. cbn [index]. rewrite Nat.eqb_refl. destruct (Nat.eqb_spec q x) as [->|]; [contradiction|]. lia.
Qed.
Lemma mapM_somes : forall U, mapM (fun x : option nat => match x with Some i => Ok i | None => UB end) (map Some U) = Ok U.
Proof. induction U as [|x U IH]; [reflexivity|]. cbn [map mapM]. rewrite IH. reflexivity. Qed.
Lemma nth_seq_map : forall (l : list nat), map (fun i => nth i l 0) (seq 0 (length l)) = l.
Proof. intros l. apply nth_ext with (d := 0) (d' := 0); [now rewrite map_length, seq_length|]. intros i I. rewrite map_length, seq_length in I. rewrite (nth_map_seq _ (fun i => nth i l 0)) by auto. reflexivity. Qed.

Section Keys.
Variables (str : list N) (maxv : nat).
Hypothesis HV : valid str maxv.
Let n := length str.
Let lms := find_lms (classified str).
Let chN : forall p, nth p str 0%N = N.of_nat (ch str p).
Proof. intros p. unfold ch. rewrite N2Nat.id. reflexivity. Qed.

Lemma ekey_suf : forall k cur p q, n - p <= k -> p < n -> q < n -> lex_lt (ekey str cur p) (ekey str cur q) -> lex_lt (skipn p str) (skipn q str).
Proof.
  unfold ekey. induction k as [|k IH]; intros cur p q H P Q L; [lia|]. rewrite (key_eq _ _ _ p P), (key_eq _ _ _ q Q) in L.
  assert (HD : (nth p str 0 < nth q str 0)%N \/ nth p str 0%N = nth q str 0%N) by (destruct (negb cur && ty str p), (negb cur && ty str q); cbn [lex_lt] in L; tauto).
  destruct HD as [HD|HD]. { apply (suf_head str); auto. unfold ch. lia. }
  destruct (ty str p) eqn:Tp, (ty str q) eqn:Tq.
  - rewrite HD in L. destruct (negb cur && true); cbn [lex_lt tyN] in L.
    + exfalso. destruct L as [L|[_ [L|[_ [L|[_ []]]]]]]; lia.
    + destruct L as [L|[_ [L|[_ L]]]]; [lia|lia|]. rewrite (skip_cons str p P), (skip_cons str q Q). right. split; auto.
      destruct (le_lt_dec n (S p)) as [P1|P1]. { rewrite (key_end _ _ _ (S p) P1) in L. destruct (le_lt_dec n (S q)) as [Q1|Q1]; [rewrite (key_end _ _ _ (S q) Q1) in L; contradiction|]. rewrite (skipn_all2 str P1), (skip_cons str (S q) Q1). exact I. }
      destruct (le_lt_dec n (S q)) as [Q1|Q1]. { rewrite (key_end _ _ _ (S q) Q1) in L. destruct (key str (fun _ => 0%N) true (S p)); contradiction. }
      apply (IH true); auto. lia.
  - exfalso. rewrite andb_false_r in L. rewrite HD in L. destruct (negb cur && true); cbn [lex_lt tyN] in L; destruct L as [L|[_ [L|[L _]]]]; lia.
  - apply (suf_LS str maxv HV n); auto; [lia|]. unfold ch. congruence.
  - rewrite !andb_false_r, HD in L. cbn [lex_lt tyN] in L. destruct L as [L|[_ [L|[_ L]]]]; [lia|lia|]. rewrite (skip_cons str p P), (skip_cons str q Q). right. split; auto.
    destruct (L_step str maxv HV p P Tp) as [P1 _]. destruct (L_step str maxv HV q Q Tq) as [Q1 _]. apply (IH false); auto. lia.
Qed.
Lemma ekey_next : forall k cur p q, n - p <= k -> p < n -> q < n -> p <> q -> (cur = false -> ty str p = true -> lmsb str p = true) -> (cur = false -> ty str q = true -> lmsb str q = true) -> ekey str cur p = ekey str cur q ->
  exists d, (d = 0 -> cur = false) /\ lmsb str (p + d) = true /\ lmsb str (q + d) = true /\ (forall e, e <= d -> ch str (p + e) = ch str (q + e)) /\
    (forall e, e < d -> lmsb str (p + e) = true \/ lmsb str (q + e) = true -> e = 0 /\ cur = true) /\
    (forall rk, lex_lt (key str rk cur p) (key str rk cur q) <-> (rk (p + d)%nat < rk (q + d)%nat)%N).
Proof.
  unfold ekey. induction k as [|k IH]; intros cur p q H P Q NE Hp Hq E; [lia|]. rewrite (key_eq _ _ _ p P), (key_eq _ _ _ q Q) in E.
  assert (C : nth p str 0%N = nth q str 0%N) by (destruct (negb cur && ty str p), (negb cur && ty str q); injection E; auto). assert (C' : ch str p = ch str q) by (unfold ch; congruence).
  assert (T : ty str p = ty str q). { destruct (ty str p) eqn:Tp, (ty str q) eqn:Tq; auto; exfalso; rewrite ?andb_false_r, ?andb_true_r in E; destruct (negb cur); discriminate E. }
  destruct (negb cur && ty str p) eqn:A.
  - apply andb_prop in A. destruct A as [A1 A2]. apply negb_true_iff in A1. exists 0. rewrite !Nat.add_0_r. assert (A3 := A2). rewrite T in A3. split; auto. split; auto. split; auto. split; [intros e F; replace e with 0 by lia; rewrite !Nat.add_0_r; auto|]. split; [intros; lia|].
    intros rk. rewrite (key_eq _ _ _ p P), (key_eq _ _ _ q Q), A1, A2, A3, C. cbn [negb andb lex_lt]. split; [intros [L|[_ [L|[_ [L|[_ []]]]]]]; auto; lia|]. intros L. right. split; auto.
  - rewrite <- T, A in E. injection E as _ E. pose proof (inner str maxv HV p q P Q NE C') as P1. pose proof (inner str maxv HV q p Q P (not_eq_sym NE) (eq_sym C')) as Q1.
    destruct (IH (ty str p) (S p) (S q)) as (d & D0 & D1 & D2 & D3 & D4 & D5); auto; try lia.
    { intros X Y. apply (lmsb_spec str maxv HV). rewrite Nat.sub_succ, Nat.sub_0_r. repeat split; auto; lia. }
    { intros X Y. apply (lmsb_spec str maxv HV). rewrite Nat.sub_succ, Nat.sub_0_r. rewrite <- T. repeat split; auto; lia. }
    exists (S d). split; [lia|]. replace (p + S d) with (S p + d) by lia. replace (q + S d) with (S q + d) by lia. split; auto. split; auto. split; [|split].
    + intros [|e] F; [rewrite !Nat.add_0_r; auto|]. replace (p + S e) with (S p + e) by lia. replace (q + S e) with (S q + e) by lia. apply D3. lia.
    + intros [|e] F G.
      * split; auto. destruct cur; auto. exfalso. rewrite !Nat.add_0_r in G. cbn [negb andb] in A. destruct G as [G|G]; apply (lmsb_spec str maxv HV) in G; destruct G as (_ & _ & _ & G); congruence.
      * replace (p + S e) with (S p + e) in G by lia. replace (q + S e) with (S q + e) in G by lia. destruct (D4 e ltac:(lia) G) as [-> Z]. exfalso. rewrite !Nat.add_0_r in G. destruct G as [G|G]; apply (lmsb_spec str maxv HV) in G; rewrite Nat.sub_succ, Nat.sub_0_r in G; [|rewrite <- T in G]; destruct G as (_ & _ & G & _); congruence.
    + intros rk. rewrite (key_eq _ _ _ p P), (key_eq _ _ _ q Q), <- T, A, C. cbn [lex_lt]. rewrite D5. split; [intros [L|[_ [L|[_ L]]]]; auto; lia|]. auto.
Qed.
Lemma ekey_back : forall d cur p q, p + d < n -> q + d < n -> (d = 0 -> cur = false) -> (forall e, e <= d -> ch str (p + e) = ch str (q + e)) -> ty str (p + d) = true -> ty str (q + d) = true ->
  (forall e, e < d -> 0 < e \/ cur = false -> lmsb str (p + e) = true -> False) -> (cur = false -> ty str p = true -> lmsb str p = true) -> (cur = false -> ty str q = true -> lmsb str q = true) -> (0 < d -> ty str (p + d - 1) = false) -> (0 < d -> ty str (q + d - 1) = false) -> ekey str cur p = ekey str cur q.
Proof.
  unfold ekey. induction d as [|d IH]; intros cur p q P Q D C Tp Tq NL Hp Hq Lp Lq.
  - rewrite D by auto. rewrite !Nat.add_0_r in *. rewrite (key_eq _ _ _ p P), (key_eq _ _ _ q Q), Tp, Tq. cbn [negb andb]. specialize (C 0 (le_n 0)). rewrite !Nat.add_0_r in C. rewrite !chN, C. reflexivity.
  - assert (TE : forall f, f <= S d -> ty str (p + (S d - f)) = ty str (q + (S d - f))).
    { induction f as [|f IHf]; intros F; [rewrite Nat.sub_0_r; congruence|]. rewrite (ty_step str maxv HV (p + (S d - S f))), (ty_step str maxv HV (q + (S d - S f))) by (fold n; lia).
      replace (S (p + (S d - S f))) with (p + (S d - f)) by lia. replace (S (q + (S d - S f))) with (q + (S d - f)) by lia. rewrite !C by lia. rewrite IHf by lia. reflexivity. }
    assert (T : ty str p = ty str q). { specialize (TE (S d) (le_n _)). rewrite Nat.sub_diag, !Nat.add_0_r in TE. exact TE. }
    rewrite (key_eq _ _ _ p), (key_eq _ _ _ q) by (fold n; lia). pose proof (C 0 ltac:(lia)) as C0. rewrite !Nat.add_0_r in C0. rewrite !chN, C0, <- T.
    destruct (negb cur && ty str p) eqn:A.
    + exfalso. apply andb_prop in A. destruct A as [A1 A2]. apply negb_true_iff in A1. apply (NL 0); auto; [lia|]. rewrite Nat.add_0_r. auto.
    + do 2 f_equal. assert (R : forall a, p + S a = S p + a) by (intros; lia). assert (R' : forall a, q + S a = S q + a) by (intros; lia).
      apply IH; try lia.
      * intros ->. specialize (Lp ltac:(lia)). replace (p + 1 - 1) with p in Lp by lia. exact Lp.
      * intros e F. rewrite <- R, <- R'. apply C. lia.
      * rewrite <- R. auto.
      * rewrite <- R'. auto.
      * intros e F _ G. rewrite <- R in G. apply (NL (S e)); auto; lia.
      * intros X Y. apply (lmsb_spec str maxv HV). rewrite Nat.sub_succ, Nat.sub_0_r. fold n. repeat split; auto; lia.
      * intros X Y. apply (lmsb_spec str maxv HV). rewrite Nat.sub_succ, Nat.sub_0_r. fold n. rewrite <- T. repeat split; auto; lia.
      * intros Z. rewrite <- R. apply Lp. lia.
      * intros Z. rewrite <- R'. apply Lq. lia.
Qed.
Lemma prefix_suf : forall d p q, p + d <= n -> q + d <= n -> (forall e, e < d -> ch str (p + e) = ch str (q + e)) -> lex_lt (skipn (p + d) str) (skipn (q + d) str) <-> lex_lt (skipn p str) (skipn q str).
Proof.
  induction d as [|d IH]; intros p q P Q C; [rewrite !Nat.add_0_r; tauto|]. rewrite (skip_cons str p), (skip_cons str q) by (fold n; lia). cbn [lex_lt]. pose proof (C 0 ltac:(lia)) as C0. rewrite !Nat.add_0_r in C0. rewrite !chN, C0.
  rewrite <- (IH (S p) (S q)); try lia. - replace (S p + d) with (p + S d) by lia. replace (S q + d) with (q + S d) by lia. split; [auto|]. intros [L|[_ L]]; auto; lia.
  - intros e F. replace (S p + e) with (p + S e) by lia. replace (S q + e) with (q + S e) by lia. apply C. lia.
Qed.
Lemma lms_next : forall a d, a < length lms -> 0 < d -> lmsb str (nth a lms 0 + d) = true -> (forall e, 0 < e -> e < d -> lmsb str (nth a lms 0 + e) = false) -> S a < length lms /\ nth (S a) lms 0 = nth a lms 0 + d.
Proof.
  intros a d A D L NL. pose proof (lms_sorted str maxv HV) as SS. fold lms in SS. apply (in_lms str maxv HV) in L. fold lms in L. destruct (In_nth _ _ 0 L) as (b & B & E).
  assert (AB : a < b). { destruct (lt_eq_lt_dec a b) as [[X| -> ]|X]; auto; [lia|]. pose proof (ss_nth _ _ _ 0 SS b a X A). lia. }
  split; [lia|]. destruct (Nat.eq_dec b (S a)) as [->|NE]; auto. exfalso.
  pose proof (ss_nth _ _ _ 0 SS a (S a) ltac:(lia) ltac:(lia)) as X1. pose proof (ss_nth _ _ _ 0 SS (S a) b ltac:(lia) B) as X2.
  assert (X3 : lmsb str (nth (S a) lms 0) = true) by (apply (in_lms str maxv HV); apply nth_In; fold lms; lia).
  specialize (NL (nth (S a) lms 0 - nth a lms 0) ltac:(lia) ltac:(lia)). replace (nth a lms 0 + (nth (S a) lms 0 - nth a lms 0)) with (nth (S a) lms 0) in NL by lia. congruence.
Qed.

(** the order of the suffixes of the reduced string *)
Lemma reduced_order : forall rk U sub k last, Permutation U (seq 0 n) -> Names str rk U sub k last -> forall j a b, length lms - a <= j -> a < length lms -> b < length lms ->
  lex_lt (skipn a (map N.of_nat (map (nmf sub) lms))) (skipn b (map N.of_nat (map (nmf sub) lms))) -> lex_lt (skipn (nth a lms 0) str) (skipn (nth b lms 0) str).
Proof.
  intros rk U sub k last PU H. set (red := map N.of_nat (map (nmf sub) lms)). assert (LR : length red = length lms) by (unfold red; rewrite !map_length; auto).
  assert (IU : forall p, p < n -> In p U) by (intros p P; apply (Permutation_in _ (Permutation_sym PU)); apply in_seq; lia).
  assert (IL : forall i, i < length lms -> lmsb str (nth i lms 0) = true /\ nth i lms 0 < n). { intros i I. assert (X : In (nth i lms 0) lms) by (apply nth_In; auto). apply (in_lms str maxv HV) in X. split; auto. apply (lmsb_spec str maxv HV) in X. tauto. }
  assert (NTH : forall i, i < length lms -> nth i red 0%N = N.of_nat (nmf sub (nth i lms 0))).
  { intros i I. unfold red. rewrite map_map. rewrite nth_indep with (d' := N.of_nat (nmf sub 0)) by (rewrite map_length; auto). apply (map_nth (fun x => N.of_nat (nmf sub x))). }
  induction j as [|j IH]; intros a b Hj A B L; [lia|]. rewrite (skip_cons red a), (skip_cons red b) in L by lia. cbn [lex_lt] in L. rewrite !NTH in L by auto.
  destruct (IL a A) as [Ta Ba], (IL b B) as [Tb Bb]. set (p := nth a lms 0) in *. set (q := nth b lms 0) in *. destruct L as [L|[EQ L]].
  - apply (ekey_suf n true); auto; [lia|]. apply (nm_lt _ _ _ _ _ _ H); auto. lia.
  - assert (EQ' : nmf sub p = nmf sub q) by lia. destruct (Nat.eq_dec p q) as [PQ|PQ].
    { exfalso. assert (AB : a = b). { pose proof (lms_sorted str maxv HV) as SS. fold lms in SS. destruct (lt_eq_lt_dec a b) as [[X|X]|X]; auto; pose proof (ss_nth _ _ _ 0 SS _ _ X ltac:(lia)); unfold p, q in PQ; lia. } subst b. exact (lex_lt_irrefl _ L). }
    assert (EE : ekey str true p = ekey str true q). { destruct (list_eq_dec N.eq_dec (ekey str true p) (ekey str true q)) as [E|E]; auto. exfalso. apply lex_lt_total in E. destruct E as [E|E]; apply (nm_lt _ _ _ _ _ _ H) in E; auto; lia. }
    destruct (ekey_next n true p q) as (d & D0 & D1 & D2 & D3 & D4 & _); auto; try lia; try discriminate. assert (D : 0 < d) by (destruct d; [discriminate D0; auto|lia]).
    assert (NLp : forall e, 0 < e -> e < d -> lmsb str (p + e) = false). { intros e E0 E1. destruct (lmsb str (p + e)) eqn:X; auto. destruct (D4 e E1 (or_introl X)). lia. }
    assert (NLq : forall e, 0 < e -> e < d -> lmsb str (q + e) = false). { intros e E0 E1. destruct (lmsb str (q + e)) eqn:X; auto. destruct (D4 e E1 (or_intror X)). lia. }
    destruct (lms_next a d A D D1 NLp) as [A1 A2]. destruct (lms_next b d B D D2 NLq) as [B1 B2].
    assert (G : lex_lt (skipn (nth (S a) lms 0) str) (skipn (nth (S b) lms 0) str)) by (apply IH; auto; lia). rewrite A2, B2 in G. fold p q in G.
    apply (lmsb_spec str maxv HV) in D1, D2. apply (prefix_suf d p q); auto; try (fold n in D1, D2; lia). intros e E. apply D3. lia.
Qed.
End Keys.
