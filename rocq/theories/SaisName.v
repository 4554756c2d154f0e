(** SA-IS: the names given to the LMS substrings, and the reduced string. *)
From Coq Require Import List NArith ZArith Arith Bool Lia Permutation Sorted.
From Verif Require Import Base Spec5 SuffixModel LcpProof SaisRows SaisPut SaisInduce SaisKey SaisOrder.
Import ListNotations.
Local Open Scope nat_scope.

Section Name.
Variables (str : list N) (maxv : nat).
Hypothesis HV : valid str maxv.
Let n := length str.
Let ts := classified str.
Let lms := find_lms ts.
Let lts : length ts = n.
Proof. apply (ts_len str maxv HV). Qed.
Let chN : forall p, nth p str 0%N = N.of_nat (ch str p).
Proof. intros p. unfold ch. rewrite N2Nat.id. reflexivity. Qed.

Lemma equal_step : forall fuel cur li ri, li < n -> ri < n -> equal_lms (S fuel) str ts cur li ri =
  if ch str li =? ch str ri then (if negb cur && ty str li then Ok true else equal_lms fuel str ts (ty str li) (S li) (S ri)) else Ok false.
Proof.
  intros fuel cur li ri L R. cbn [equal_lms]. rewrite (lget_nth _ _ li 0%N), (lget_nth _ _ ri 0%N), (lget_nth _ _ li true) by (rewrite ?lts; auto). cbn [bind]. fold (ty str li). rewrite !chN.
  destruct (Nat.eqb_spec (ch str li) (ch str ri)) as [->|E]. - rewrite N.eqb_refl. reflexivity. - destruct (N.eqb_spec (N.of_nat (ch str li)) (N.of_nat (ch str ri))); [lia|reflexivity].
Qed.
Lemma inner : forall p q, p < n -> q < n -> p <> q -> ch str p = ch str q -> S p < n.
Proof.
  intros p q P Q NE C. destruct (Nat.eq_dec p (n - 1)) as [->|]; [|lia]. unfold n in C. rewrite (ch_last str maxv HV) in C. symmetry in C. apply (ch_zero str maxv HV) in C; auto. fold n in C. congruence.
Qed.
Lemma equal_diff : forall fuel cur li ri, n - li < fuel -> li < n -> ri < n -> ty str li = false -> ty str ri = true -> equal_lms fuel str ts cur li ri = Ok false.
Proof.
  induction fuel as [|fuel IH]; intros cur li ri F L R TL TR; [lia|]. rewrite equal_step by auto. destruct (Nat.eqb_spec (ch str li) (ch str ri)) as [C|]; [|reflexivity]. rewrite TL, andb_false_r.
  assert (NE : li <> ri) by congruence. pose proof (inner ri li R L (not_eq_sym NE) (eq_sym C)) as R1.
  destruct (L_step str maxv HV li L TL) as [L1 D1]. pose proof (S_step str maxv HV ri R1 TR) as D2.
  assert (O : ch str (S li) <> ch str (S ri) \/ (ty str (S li) = false /\ ty str (S ri) = true)) by (destruct D1 as [D1|[D1 D1']], D2 as [D2|[D2 D2']]; [left; lia|left; lia|left; lia|right; auto]).
  destruct O as [O|[O1 O2]]; [|apply IH; auto; lia]. destruct fuel as [|fuel]; [lia|]. rewrite equal_step by auto. destruct (Nat.eqb_spec (ch str (S li)) (ch str (S ri))); [contradiction|reflexivity].
Qed.
Lemma equal_ok : forall rk fuel cur li ri, n - li < fuel -> li < n -> ri < n -> li <> ri -> lex_lt (key str rk cur li) (key str rk cur ri) ->
  exists b, equal_lms fuel str ts cur li ri = Ok b /\ (b = true <-> ekey str cur li = ekey str cur ri).
Proof.
  intros rk. induction fuel as [|fuel IH]; intros cur li ri F L R NE H; [lia|]. rewrite equal_step by auto. unfold ekey. rewrite !(key_eq _ _ _ li L), !(key_eq _ _ _ ri R) in *. rewrite !chN in *.
  destruct (Nat.eqb_spec (ch str li) (ch str ri)) as [C|C].
  2:{ exists false. split; auto. split; [discriminate|]. intros E. exfalso. destruct (negb cur && ty str li), (negb cur && ty str ri); injection E; intros; lia. }
  rewrite C in *. destruct (negb cur && ty str li) eqn:A.
  - apply andb_prop in A. destruct A as [A1 A2]. rewrite A1 in *. cbn [andb] in *. exists true. split; auto. split; auto. intros _. destruct (ty str ri) eqn:T; [reflexivity|].
    exfalso. cbn [lex_lt tyN] in H. destruct H as [H|[_ [H|[H _]]]]; lia.
  - assert (TT : ty str li = ty str ri \/ (ty str li = false /\ ty str ri = true)).
    { destruct (ty str li) eqn:TL, (ty str ri) eqn:TR; auto. exfalso. rewrite andb_false_r in H. cbn [lex_lt tyN] in H. destruct H as [H|[_ [H|[H _]]]]; lia. }
    destruct TT as [TT|[TL TR]].
    + rewrite TT in *. rewrite A in *. cbn [lex_lt] in H. destruct H as [H|[_ [H|[_ H]]]]; [lia|lia|].
      pose proof (inner li ri L R NE C) as L1. pose proof (inner ri li R L (not_eq_sym NE) (eq_sym C)) as R1.
      destruct (IH (ty str ri) (S li) (S ri)) as (b & E & B); auto; try lia. exists b. split; auto. rewrite B. unfold ekey. split; [intros ->; reflexivity|]. intros Q. injection Q as Q. exact Q.
    + exists false. assert (C1 : S li < n) by (apply (inner li ri); auto).
      assert (EQ : equal_lms (S fuel) str ts cur li ri = Ok false) by (apply equal_diff; auto). rewrite equal_step in EQ by auto. rewrite C, Nat.eqb_refl, A in EQ. split; [exact EQ|].
      split; [discriminate|]. intros E. exfalso. rewrite TL, TR in E. cbn [tyN] in E. destruct (negb cur && true); discriminate E.
Qed.

(** ** The naming loop *)
Definition nmf (sub : list (option nat)) (j : nat) : nat := match nth j sub None with Some v => v | None => 0 end.
Record Names (rk : nat -> N) (l : list nat) (sub : list (option nat)) (k last : nat) : Prop := {
  nm_len : length sub = n;
  nm_some : forall j, j < n -> nth j sub None = if lmsb str j && existsb (Nat.eqb j) l then Some (nmf sub j) else None;
  nm_lt : forall p q, In p l -> In q l -> lmsb str p = true -> lmsb str q = true -> lex_lt (ekey str true p) (ekey str true q) <-> nmf sub p < nmf sub q;
  nm_max : forall p, In p l -> lmsb str p = true -> nmf sub p <= k;
  nm_onto : forall v, v <= k -> 0 < last -> exists p, In p l /\ lmsb str p = true /\ nmf sub p = v;
  nm_last : (last = 0 /\ k = 0 /\ forall p, In p l -> lmsb str p = false) \/
            (In last l /\ lmsb str last = true /\ nmf sub last = k /\ forall p, In p l -> lmsb str p = true -> p = last \/ lex_lt (key str rk true p) (key str rk true last))
}.
Lemma existsb_in : forall j l, existsb (Nat.eqb j) l = true <-> In j l.
Proof. intros j l. rewrite existsb_exists. split; [intros (x & X & E); apply Nat.eqb_eq in E; subst; auto|intros H; exists j; split; auto; apply Nat.eqb_refl]. Qed.
Lemma lms_type : forall j, S j < n -> lmsb str (S j) = negb (ty str j) && ty str (S j).
Proof.
  intros j H. apply bool_iff. rewrite (lmsb_spec str maxv HV), andb_true_iff, negb_true_iff. rewrite Nat.sub_succ, Nat.sub_0_r. fold n. split; [tauto|]. intros [A B]. repeat split; auto; lia.
Qed.
Lemma name_ok : forall rk l x sub k last, (forall p, In p (l ++ [x]) -> p < n) -> NoDup (l ++ [x]) -> StronglySorted (fun p q => lex_lt (key str rk true p) (key str rk true q)) (l ++ [x]) -> Names rk l sub k last ->
  exists sub' k' last', name_step str ts (sub, k, last) (Some x) = Ok (sub', k', last') /\ Names rk (l ++ [x]) sub' k' last'.
Proof.
  intros rk l x sub k last B ND SS H. assert (Bx : x < n) by (apply B; apply in_or_app; right; left; auto).
  assert (Skip : lmsb str x = false -> Names rk (l ++ [x]) sub k last).
  { intros T. assert (NX : forall p, In p (l ++ [x]) -> lmsb str p = true -> In p l) by (intros p P Q; apply in_app_or in P; destruct P as [P|[<-|[]]]; auto; congruence). split.
    - apply H.
    - intros j J. rewrite (nm_some _ _ _ _ _ H j J). destruct (lmsb str j) eqn:Q; [|reflexivity]. cbn [andb]. rewrite existsb_app. cbn [existsb]. rewrite orb_false_r. destruct (Nat.eqb_spec j x); [congruence|]. rewrite orb_false_r. reflexivity.
    - intros p q P Q P1 Q1. apply (nm_lt _ _ _ _ _ H); auto.
    - intros p P P1. apply (nm_max _ _ _ _ _ H); auto.
    - intros v V Z. destruct (nm_onto _ _ _ _ _ H v V Z) as (p & P & Q). exists p. split; auto. apply in_or_app. auto.
    - destruct (nm_last _ _ _ _ _ H) as [(A & A2 & A3)|(A1 & A2 & A3 & A4)]; [left|right].
      + split; auto. split; auto. intros p P. destruct (lmsb str p) eqn:Q; auto. rewrite (A3 p) in Q; auto.
      + split; [apply in_or_app; auto|]. split; auto. }
  destruct x as [|j]; [exists sub, k, last; split; [reflexivity|apply Skip; reflexivity]|].
  unfold name_step. rewrite (lget_nth _ ts j true), (lget_nth _ ts (S j) true) by (rewrite lts; lia). cbn [bind]. change (nth j ts true) with (ty str j). change (nth (S j) ts true) with (ty str (S j)). rewrite <- (lms_type j Bx).
  set (x := S j) in *. destruct (lmsb str x) eqn:T; [|exists sub, k, last; split; [reflexivity|auto]].
  assert (LX : forall p, In p l -> lex_lt (key str rk true p) (key str rk true x)). { intros p P. apply ss_app_inv in SS. destruct SS as (_ & _ & SS). apply SS; auto. left; auto. }
  assert (NXl : ~ In x l). { intros X. apply (lex_lt_irrefl _ (LX x X)). }
  assert (Bl : forall p, In p l -> p < n) by (intros; apply B; apply in_or_app; auto).
  assert (STEP : exists k', (if 0 <? last then do e <- equal_lms (S (length str)) str ts true last x; Ok (if e then k else S k) else Ok k) = Ok k' /\
            (last = 0 -> k' = k) /\ (0 < last -> k' = k /\ ekey str true last = ekey str true x \/ k' = S k /\ lex_lt (ekey str true last) (ekey str true x))).
  { destruct (Nat.ltb_spec 0 last) as [Z|Z]; [|exists k; split; auto; split; auto; lia]. destruct (nm_last _ _ _ _ _ H) as [(A & A2 & A3)|(A1 & A2 & A3 & A4)]; [lia|].
    destruct (equal_ok rk (S (length str)) true last x) as (b & E & Eb); auto; try (fold n; lia); try congruence. rewrite E. cbn [bind]. destruct (key_weak str rk n true last x ltac:(fold n; lia) (LX _ A1)) as [W|W].
    - exists (S k). destruct b. { apply proj1 in Eb. rewrite (Eb eq_refl) in W. exfalso. exact (lex_lt_irrefl _ W). } split; auto. split; [lia|auto].
    - exists k. apply Eb in W. rewrite W. split; auto. split; auto. intros _. left. split; auto. apply Eb. auto. }
  destruct STEP as (k' & -> & KZ & KP). cbn [bind]. rewrite lset_Ok by (rewrite (nm_len _ _ _ _ _ H); auto). cbn [bind].
  set (sub' := upd sub x (Some k')). exists sub', k', x. split; [reflexivity|].
  assert (Nx : nmf sub' x = k'). { unfold nmf, sub'. rewrite nth_upd, Nat.eqb_refl, (nm_len _ _ _ _ _ H). destruct (Nat.ltb_spec x n); [reflexivity|lia]. }
  assert (No : forall p, p <> x -> nmf sub' p = nmf sub p). { intros p P. unfold nmf, sub'. rewrite nth_upd. destruct (Nat.eqb_spec p x); [contradiction|]. reflexivity. }
  assert (Nl : forall p, In p l -> nmf sub' p = nmf sub p) by (intros p P; apply No; congruence).
  assert (KK : k <= k') by (destruct (Nat.eq_dec last 0); [rewrite KZ by auto; auto|]; destruct (KP ltac:(lia)) as [[-> _]|[-> _]]; lia).
  assert (LE : forall p, In p l -> lmsb str p = true -> (lex_lt (ekey str true p) (ekey str true x) <-> nmf sub p < k') /\ ~ lex_lt (ekey str true x) (ekey str true p)).
  { intros p P Tp. destruct (nm_last _ _ _ _ _ H) as [(A & A2 & A3)|(A1 & A2 & A3 & A4)]; [rewrite A3 in Tp; auto; discriminate|].
    assert (Z : 0 < last). { apply (lmsb_spec str maxv HV) in A2. lia. }
    assert (W : lex_lt (ekey str true p) (ekey str true x) \/ ekey str true p = ekey str true x) by (apply (key_weak str rk n); [lia|auto]).
    split; [|intros Q; destruct W as [W|W]; [exact (lex_lt_asym _ _ W Q)|rewrite W in Q; exact (lex_lt_irrefl _ Q)]].
    pose proof (nm_max _ _ _ _ _ H p P Tp) as Mx. pose proof (nm_lt _ _ _ _ _ H p last P A1 Tp A2) as Lt.
    destruct (KP Z) as [[-> EE]|[-> EE]].
    - rewrite <- EE. rewrite A3 in Lt. exact Lt.
    - split; [lia|]. intros _. assert (W2 : lex_lt (ekey str true p) (ekey str true last) \/ ekey str true p = ekey str true last).
      { destruct (A4 p P Tp) as [->|Q]; auto. apply (key_weak str rk n) in Q; [auto|lia]. }
      destruct W2 as [W2|W2]; [exact (lex_lt_trans _ _ _ W2 EE)|rewrite W2; exact EE]. }
  assert (SPL : forall p, In p (l ++ [x]) -> In p l \/ p = x) by (intros p P; apply in_app_or in P; destruct P as [P|[<-|[]]]; auto).
  split.
  - unfold sub'. rewrite upd_length. apply H.
  - intros i I. rewrite existsb_app. cbn [existsb]. rewrite orb_false_r. destruct (Nat.eqb_spec i x) as [->|NE].
    + rewrite orb_true_r, T. cbn [andb]. unfold nmf, sub'. rewrite nth_upd, Nat.eqb_refl, (nm_len _ _ _ _ _ H). destruct (Nat.ltb_spec x n); [reflexivity|lia].
    + rewrite orb_false_r, (No i NE). unfold sub'. rewrite nth_upd. destruct (Nat.eqb_spec i x); [contradiction|]. cbn [andb]. apply (nm_some _ _ _ _ _ H); auto.
  - intros p q P Q Tp Tq. apply SPL in P, Q. destruct P as [P| -> ], Q as [Q| -> ].
    + rewrite !Nl by auto. apply (nm_lt _ _ _ _ _ H); auto.
    + rewrite (Nl p P), Nx. apply LE; auto.
    + rewrite (Nl q Q), Nx. split; [intros Q'; exfalso; apply (proj2 (LE q Q Tq)); auto|]. pose proof (nm_max _ _ _ _ _ H q Q Tq). lia.
    + split; [intros Q; exfalso; exact (lex_lt_irrefl _ Q)|lia].
  - intros p P Tp. apply SPL in P. destruct P as [P| -> ]; [|lia]. rewrite Nl by auto. pose proof (nm_max _ _ _ _ _ H p P Tp). lia.
  - intros v V _. destruct (Nat.eq_dec v k') as [->|NE]; [exists x; split; [apply in_or_app; right; left; auto|auto]|].
    destruct (Nat.eq_dec last 0) as [Z|Z].
    + rewrite KZ in * by auto. destruct (nm_last _ _ _ _ _ H) as [(A & A2 & A3)|(A1 & A2 & A3 & A4)]; [lia|]. apply (lmsb_spec str maxv HV) in A2. lia.
    + assert (v <= k) by (destruct (KP ltac:(lia)) as [[-> _]|[-> _]]; lia). destruct (nm_onto _ _ _ _ _ H v) as (p & P1 & P2 & P3); auto; [lia|]. exists p. split; [apply in_or_app; auto|]. rewrite Nl; auto.
  - right. split; [apply in_or_app; right; left; auto|]. split; auto. split; auto. intros p P Tp. apply SPL in P. destruct P as [P| -> ]; auto.
Qed.
Lemma names_init : forall rk, Names rk [] (repeat None n) 0 0.
Proof.
  intros rk. split; [apply repeat_length| | | | |].
  - intros j J. cbn [existsb]. rewrite andb_false_r. apply nth_repeat_lt. auto.
  - intros p q [].
  - intros p [].
  - intros v _ Z. lia.
  - left. split; [reflexivity|]. split; [reflexivity|]. intros p [].
Qed.
Lemma names_all : forall rk U, Permutation U (seq 0 n) -> StronglySorted (fun p q => lex_lt (key str rk true p) (key str rk true q)) U ->
  exists sub k last, foldM (name_step str ts) (map Some U) (repeat None n, 0, 0) = Ok (sub, k, last) /\ Names rk U sub k last.
Proof.
  intros rk U PU SU. assert (B : forall p, In p U -> p < n) by (intros p P; apply (Permutation_in _ PU) in P; apply in_seq in P; lia).
  assert (ND : NoDup U) by (apply (Permutation_NoDup (Permutation_sym PU)), seq_NoDup).
  assert (G : forall b a sub k last, U = a ++ b -> Names rk a sub k last -> exists sub' k' last', foldM (name_step str ts) (map Some b) (sub, k, last) = Ok (sub', k', last') /\ Names rk U sub' k' last').
  { induction b as [|x b IH]; intros a sub k last E H. - rewrite app_nil_r in E. subst a. exists sub, k, last. split; [reflexivity|auto].
    - assert (E' : U = (a ++ [x]) ++ b) by (rewrite <- app_assoc; exact E). destruct (name_ok rk a x sub k last) as (s1 & k1 & l1 & E1 & H1); auto.
      + intros p P. apply B. rewrite E'. apply in_or_app. auto.
      + rewrite E' in ND. clear -ND. induction (a ++ [x]) as [|y l IH]; [constructor|]. inversion ND as [|? ? Ni Nd]; subst. constructor; [intros Q; apply Ni; apply in_or_app; auto|auto].
      + rewrite E' in SU. apply ss_app_inv in SU. tauto.
      + destruct (IH (a ++ [x]) s1 k1 l1 E' H1) as (s2 & k2 & l2 & E2 & H2). exists s2, k2, l2. split; auto. cbn [map foldM]. rewrite E1. cbn [bind]. exact E2. }
  apply (G U [] _ _ _ eq_refl (names_init rk)).
Qed.

(** ** The reduced string *)
Lemma squeeze_ok : forall sub k, length (somes sub) = k -> squeeze k sub = Ok (somes sub).
Proof.
  intros sub k LK. unfold squeeze. assert (G : forall sub a (b : list nat), length b = length (somes sub) ->
    foldM (fun st x => let '(l, i) := st in match x with None => Ok st | Some v => do l <- lset l i v; Ok (l, S i) end) sub (a ++ b, length a) = Ok (a ++ somes sub, length a + length (somes sub))).
  { clear. induction sub as [|[v|] sub IH]; intros a b L.
    - destruct b; [|discriminate]. cbn [foldM somes length]. rewrite Nat.add_0_r. reflexivity.
    - change (somes (Some v :: sub)) with (v :: somes sub) in *. destruct b as [|y b]; [discriminate|]. cbn [foldM]. rewrite lset_Ok by (rewrite app_length; cbn [length]; lia). cbn [bind].
      replace (upd (a ++ y :: b) (length a) v) with ((a ++ [v]) ++ b). 2:{ replace (length a) with (length a + 0) at 1 by lia. rewrite upd_app2. rewrite <- app_assoc. reflexivity. }
      replace (S (length a)) with (length (a ++ [v])) by (rewrite app_length; cbn [length]; lia). rewrite IH by (cbn [length] in L; lia). rewrite <- app_assoc, app_length. cbn [app length]. do 2 f_equal. lia.
    - change (somes (None :: sub)) with (somes sub) in *. cbn [foldM bind]. apply IH. exact L. }
  specialize (G sub [] (repeat 0 k)). cbn [app length] in G. rewrite G by (rewrite repeat_length; auto). reflexivity.
Qed.
Lemma lms_filter : lms = filter (lmsb str) (seq 0 n).
Proof. unfold lms, find_lms. fold ts. rewrite lts. pose proof (n2 str maxv HV). fold n in H. replace n with (S (n - 1)) at 2 by lia. cbn [seq filter]. reflexivity. Qed.
Lemma somes_names : forall rk U sub k last, Permutation U (seq 0 n) -> Names rk U sub k last -> somes sub = map (nmf sub) lms.
Proof.
  intros rk U sub k last PU H. assert (E : sub = map (fun j => if lmsb str j then Some (nmf sub j) else None) (seq 0 n)).
  { apply nth_ext with (d := None) (d' := None); [rewrite map_length, seq_length; apply H|]. intros i I. rewrite (nm_len _ _ _ _ _ H) in I. rewrite nth_map_seq by auto. rewrite (nm_some _ _ _ _ _ H i I).
    assert (Q : existsb (Nat.eqb i) U = true) by (apply existsb_in; apply (Permutation_in _ (Permutation_sym PU)); apply in_seq; lia). rewrite Q, andb_true_r. reflexivity. }
  rewrite E at 1. rewrite lms_filter. generalize (seq 0 n). generalize (nmf sub). clear. intros f l. induction l as [|x l IH]; [reflexivity|]. cbn [map filter]. destruct (lmsb str x); cbn [map].
  - change (somes (Some (f x) :: ?l)) with (f x :: somes l). rewrite IH. reflexivity.
  - change (somes (None :: ?l)) with (somes l). exact IH.
Qed.
Lemma lms_sorted : StronglySorted lt lms.
Proof.
  rewrite lms_filter. apply ss_filter. generalize 0. generalize n. clear. induction n as [|k IH]; intros a; [constructor|]. cbn [seq]. constructor; auto. apply Forall_forall. intros x X. apply in_seq in X. lia.
Qed.
Lemma lms_nth_last : nth (length lms - 1) lms 0 = n - 1 /\ 1 <= length lms.
Proof.
  pose proof (lms_last str maxv HV) as L. fold n in L. apply (in_lms str maxv HV) in L. fold ts in L. fold lms in L. destruct (In_nth _ _ 0 L) as (i & I & E). split; [|lia].
  destruct (Nat.eq_dec i (length lms - 1)) as [->|NE]; auto. exfalso. pose proof (ss_nth _ _ _ 0 lms_sorted i (length lms - 1) ltac:(lia) ltac:(lia)) as Q.
  assert (X : In (nth (length lms - 1) lms 0) lms) by (apply nth_In; lia). apply (in_lms str maxv HV) in X. apply (lmsb_spec str maxv HV) in X. fold n in X. lia.
Qed.
Lemma lms_short : length lms < n.
Proof. unfold lms, find_lms. pose proof (n2 str maxv HV). fold n in H. apply Nat.le_lt_trans with (length (seq 1 (length ts - 1))); [|rewrite seq_length, lts; lia]. generalize (seq 1 (length ts - 1)). induction l as [|x l IH]; [auto|]. cbn [filter length]. destruct (is_lms ts x); cbn [length]; lia. Qed.
Lemma reduced_valid : forall rk U sub k last, Permutation U (seq 0 n) -> Names rk U sub k last -> 2 <= length lms -> valid (map N.of_nat (map (nmf sub) lms)) k.
Proof.
  intros rk U sub k last PU H L2. assert (IU : forall p, p < n -> In p U) by (intros p P; apply (Permutation_in _ (Permutation_sym PU)); apply in_seq; lia).
  assert (IL : forall i, i < length lms -> lmsb str (nth i lms 0) = true /\ nth i lms 0 < n). { intros i I. assert (X : In (nth i lms 0) lms) by (apply nth_In; auto). apply (in_lms str maxv HV) in X. split; auto. apply (lmsb_spec str maxv HV) in X. tauto. }
  assert (LL := lms_last str maxv HV). fold n in LL. assert (n1 : n - 1 < n) by (pose proof (n2 str maxv HV) as n2_; fold n in n2_; lia).
  assert (POS : forall p, p < n -> lmsb str p = true -> p <> n - 1 -> nmf sub (n - 1) < nmf sub p).
  { intros p P T NE. apply (nm_lt _ _ _ _ _ H); auto. apply (key_head str); auto. unfold n. rewrite (ch_last str maxv HV). destruct (ch str p) eqn:C; [|lia]. exfalso. apply NE. apply (ch_zero str maxv HV); auto. }
  assert (Z : nmf sub (n - 1) = 0).
  { destruct (nm_last _ _ _ _ _ H) as [(_ & _ & A)|(A1 & A2 & _)]; [rewrite A in LL; auto; discriminate|]. destruct (nm_onto _ _ _ _ _ H 0) as (p & P & T & E); [lia|apply (lmsb_spec str maxv HV) in A2; lia|].
    destruct (Nat.eq_dec p (n - 1)) as [->|NE]; auto. apply POS in NE; auto; [lia|]. apply (lmsb_spec str maxv HV) in T. tauto. }
  assert (NTH : forall i d, i < length lms -> nth i (map N.of_nat (map (nmf sub) lms)) d = N.of_nat (nmf sub (nth i lms 0))).
  { intros i d I. rewrite map_map. rewrite nth_indep with (d' := N.of_nat (nmf sub 0)) by (rewrite map_length; auto). apply (map_nth (fun x => N.of_nat (nmf sub x))). }
  split; rewrite ?map_length; auto.
  - rewrite NTH by lia. rewrite (proj1 lms_nth_last), Z. reflexivity.
  - intros i I. rewrite NTH by lia. destruct (IL i ltac:(lia)) as [T B]. assert (NE : nth i lms 0 <> n - 1). { rewrite <- (proj1 lms_nth_last). pose proof (ss_nth _ _ _ 0 lms_sorted i (length lms - 1) ltac:(lia) ltac:(lia)). lia. }
    specialize (POS _ B T NE). lia.
  - intros i I. rewrite NTH by lia. destruct (IL i ltac:(lia)) as [T B]. pose proof (nm_max _ _ _ _ _ H _ (IU _ B) T). lia.
Qed.
End Name.
