(** SA-IS: what one pass of induced sorting returns, for any order of the LMS suffixes and for the right one. *)
From Coq Require Import List NArith ZArith Arith Bool Lia Permutation Sorted.
From Verif Require Import Base Spec5 SuffixModel LcpProof SaisRows SaisPut SaisInduce SaisKey.
Import ListNotations.
Local Open Scope nat_scope.

Lemma skip_cons : forall (l : list N) p, p < length l -> skipn p l = nth p l 0%N :: skipn (S p) l.
Proof. induction l as [|x l IH]; intros [|p] H; cbn [length] in H; try lia; [reflexivity|]. cbn [skipn nth]. rewrite IH by lia. reflexivity. Qed.

Section Suf.
Variables (str : list N) (maxv : nat).
Hypothesis HV : valid str maxv.
Let n := length str.
Let lms := find_lms (classified str).
Let suf p := skipn p str.
Let suf_cons : forall p, p < n -> suf p = nth p str 0%N :: suf (S p).
Proof. intros p H. apply skip_cons. exact H. Qed.
Let chN : forall p, nth p str 0%N = N.of_nat (ch str p).
Proof. intros p. unfold ch. rewrite N2Nat.id. reflexivity. Qed.

Lemma suf_head : forall p q, p < n -> q < n -> ch str p < ch str q -> lex_lt (suf p) (suf q).
Proof. intros p q P Q H. rewrite (suf_cons p P), (suf_cons q Q). left. rewrite !chN. lia. Qed.
Lemma suf_L : forall k p, n - p <= k -> p < n -> ty str p = false -> lex_lt (suf (S p)) (suf p).
Proof.
  induction k as [|k IH]; intros p H P T; [lia|]. destruct (L_step str maxv HV p P T) as [S1 [C|[C T1]]]. - apply suf_head; auto.
  - rewrite (suf_cons (S p) S1), (suf_cons p P). right. split; [rewrite !chN; congruence|]. apply IH; auto. lia.
Qed.
Lemma suf_S : forall k p, n - p <= k -> S p < n -> ty str p = true -> lex_lt (suf p) (suf (S p)).
Proof.
  induction k as [|k IH]; intros p H P T; [lia|]. destruct (S_step str maxv HV p P T) as [C|[C T1]]. - apply suf_head; auto. lia.
  - rewrite (suf_cons (S p) P), (suf_cons p) by lia. right. split; [rewrite !chN; congruence|]. apply IH; auto; [lia|]. assert (S p <> n - 1); [|fold n in P; lia]. intros E.
    pose proof (ch_pos str maxv HV p ltac:(fold n; lia)). rewrite E in C. unfold n in C. rewrite (ch_last str maxv HV) in C. lia.
Qed.
Lemma suf_LS : forall k p q, n - p <= k -> p < n -> q < n -> ch str p = ch str q -> ty str p = false -> ty str q = true -> lex_lt (suf p) (suf q).
Proof.
  induction k as [|k IH]; intros p q H P Q C Tp Tq; [lia|]. destruct (L_step str maxv HV p P Tp) as [P1 D].
  assert (Q1 : S q < n). { destruct (Nat.eq_dec q (n - 1)) as [->|]; [|lia]. unfold n in C. rewrite (ch_last str maxv HV) in C. apply (ch_zero str maxv HV) in C; auto. rewrite C in Tp. rewrite (ty_last str maxv HV) in Tp. discriminate. }
  rewrite (suf_cons p P), (suf_cons q Q). right. split; [rewrite !chN; congruence|]. pose proof (S_step str maxv HV q Q1 Tq) as D2.
  assert (O : ch str (S p) < ch str (S q) \/ (ch str (S p) = ch str (S q) /\ ty str (S p) = false /\ ty str (S q) = true)).
  { destruct D as [D|[D D']], D2 as [D2|[D2 D2']]; [left; lia|left; lia|left; lia|right]. split; [congruence|]. auto. }
  destruct O as [O|(O1 & O2 & O3)]; [apply suf_head; auto|]. apply IH; auto. lia.
Qed.
Lemma suf_inj : forall p q, p < n -> q < n -> suf p = suf q -> p = q.
Proof. intros p q P Q E. apply (f_equal (@length N)) in E. unfold suf in E. rewrite !skipn_length in E. fold n in E. lia. Qed.
Lemma suf_tail : forall p q, p < n -> q < n -> ch str p = ch str q -> lex_lt (suf p) (suf q) -> lex_lt (suf (S p)) (suf (S q)).
Proof. intros p q P Q C H. rewrite (suf_cons p P), (suf_cons q Q) in H. destruct H as [H|[_ H]]; auto. rewrite !chN in H. lia. Qed.

(** with the LMS suffixes in the right order all suffixes are sorted *)
Theorem induce_suffix : forall order, NoDup order -> (forall i, In i order <-> i < length lms) ->
  (forall c, StronglySorted (fun p q => lex_lt (skipn p str) (skipn q str)) (filter (fun p => ch str p =? c) (map (fun i => nth i lms 0) (rev order)))) ->
  exists U, induce maxv str (classified str) lms order = Ok (map Some U) /\ Permutation U (seq 0 n) /\ StronglySorted (fun p q => lex_lt (skipn p str) (skipn q str)) U.
Proof.
  intros order ND IO RS. apply (induce_keyed str maxv HV suf suf); auto.
  - exact suf_inj. - exact suf_head. - exact suf_head.
  - intros p q P Q C T. apply (lmsb_spec str maxv HV) in Q. apply (suf_LS n); auto; try lia; tauto.
  - intros p q P Q C T T'. apply (suf_LS n); auto. lia.
  - intros p q P Q _ _ C H. apply suf_tail; auto.
  - intros p P T. apply (suf_L n); auto. lia.
  - intros p q P Q _ _ C H. apply suf_tail; auto; unfold n; lia.
  - intros p P T. apply (suf_S n); auto. lia.
Qed.
End Suf.

(** ** Any order of the LMS suffixes *)
Definition tyN (b : bool) : N := if b then 1%N else 0%N.
(** the characters and types up to the next LMS position, then the rank of that position *)
Fixpoint kt (str : list N) (rk : nat -> N) (fuel : nat) (cur : bool) (j : nat) : list N :=
  match fuel with
  | O => []
  | S fuel => if negb cur && ty str j then [nth j str 0%N; 1%N; rk j] else nth j str 0%N :: tyN (ty str j) :: kt str rk fuel (ty str j) (S j)
  end.
Definition key (str : list N) (rk : nat -> N) (cur : bool) (j : nat) : list N := kt str rk (length str - j) cur j.
Definition ekey (str : list N) : bool -> nat -> list N := key str (fun _ => 0%N).
Lemma key_eq : forall str rk cur j, j < length str -> key str rk cur j = if negb cur && ty str j then [nth j str 0%N; 1%N; rk j] else nth j str 0%N :: tyN (ty str j) :: key str rk (ty str j) (S j).
Proof. intros str rk cur j H. unfold key. replace (length str - j) with (S (length str - S j)) by lia. reflexivity. Qed.
Lemma key_end : forall str rk cur j, length str <= j -> key str rk cur j = [].
Proof. intros str rk cur j H. unfold key. replace (length str - j) with 0 by lia. reflexivity. Qed.

Section Any.
Variables (str : list N) (maxv : nat).
Hypothesis HV : valid str maxv.
Let n := length str.
Let lms := find_lms (classified str).
Let chN : forall p, nth p str 0%N = N.of_nat (ch str p).
Proof. intros p. unfold ch. rewrite N2Nat.id. reflexivity. Qed.
Section Rk.
Variable rk : nat -> N.
Let K := key str rk.
Lemma key_head : forall cur p q, p < n -> q < n -> ch str p < ch str q -> lex_lt (K cur p) (K cur q).
Proof. intros cur p q P Q C. unfold K. rewrite (key_eq _ _ _ p P), (key_eq _ _ _ q Q). rewrite !chN. destruct (negb cur && ty str p), (negb cur && ty str q); left; lia. Qed.
Lemma key_LS : forall cur p q, p < n -> q < n -> ch str p = ch str q -> ty str p = false -> ty str q = true -> lex_lt (K cur p) (K cur q).
Proof. intros cur p q P Q C Tp Tq. unfold K. rewrite (key_eq _ _ _ p P), (key_eq _ _ _ q Q). rewrite Tp, Tq, !chN, C. rewrite andb_false_r. destruct (negb cur && true); right; (split; [reflexivity|]); left; reflexivity. Qed.
Lemma key_inj : (forall p q, lmsb str p = true -> lmsb str q = true -> rk p = rk q -> p = q) -> forall k cur p q, n - p <= k -> p < n -> q < n ->
  (cur = false -> ty str p = true -> lmsb str p = true) -> (cur = false -> ty str q = true -> lmsb str q = true) -> K cur p = K cur q -> p = q.
Proof.
  intros I. induction k as [|k IH]; intros cur p q H P Q Hp Hq E; [lia|]. unfold K in E. rewrite (key_eq _ _ _ p P), (key_eq _ _ _ q Q) in E.
  destruct cur; cbn [negb andb] in E.
  - injection E as E1 E2 E3. assert (T : ty str p = ty str q) by (destruct (ty str p), (ty str q); auto; discriminate).
    destruct (Nat.eq_dec p (n - 1)) as [->|Np]. { apply (ch_zero str maxv HV) in Q; [auto|]. unfold ch. rewrite <- E1. apply (ch_last str maxv HV). }
    destruct (Nat.eq_dec q (n - 1)) as [->|Nq]. { symmetry. apply (ch_zero str maxv HV) in P; [auto|]. unfold ch. rewrite E1. apply (ch_last str maxv HV). }
    assert (S p = S q); [|lia]. apply (IH (ty str p)); try lia.
    + intros T0 T1. apply (lmsb_spec str maxv HV). rewrite Nat.sub_succ, Nat.sub_0_r. fold n. repeat split; auto; lia.
    + intros T0 T1. apply (lmsb_spec str maxv HV). rewrite Nat.sub_succ, Nat.sub_0_r. fold n. rewrite <- T. repeat split; auto; lia.
    + unfold K. rewrite E3, T. reflexivity.
  - destruct (ty str p) eqn:Tp, (ty str q) eqn:Tq; cbn [tyN] in E; try discriminate.
    + injection E as E1 E2. apply I; auto.
    + injection E as E1 E2. destruct (L_step str maxv HV p P Tp) as [P1 _]. destruct (L_step str maxv HV q Q Tq) as [Q1 _]. assert (S p = S q); [|lia]. apply (IH false); try lia; auto.
      * intros _ T1. apply (lmsb_spec str maxv HV). rewrite Nat.sub_succ, Nat.sub_0_r. repeat split; auto; lia.
      * intros _ T1. apply (lmsb_spec str maxv HV). rewrite Nat.sub_succ, Nat.sub_0_r. repeat split; auto; lia.
Qed.
Lemma key_tailL : forall p q, p < n -> q < n -> ty str p = false -> ty str q = false -> ch str p = ch str q -> lex_lt (K false p) (K false q) -> lex_lt (K false (S p)) (K false (S q)).
Proof. intros p q P Q Tp Tq C H. unfold K in *. rewrite (key_eq _ _ _ p P), (key_eq _ _ _ q Q), Tp, Tq, !chN, C in H. cbn [negb andb tyN lex_lt] in H. destruct H as [H|[_ [H|[_ H]]]]; auto; lia. Qed.
Lemma key_tailS : forall p q, p < n -> q < n -> ty str p = true -> ty str q = true -> ch str p = ch str q -> lex_lt (K true p) (K true q) -> lex_lt (K true (S p)) (K true (S q)).
Proof. intros p q P Q Tp Tq C H. unfold K in *. rewrite (key_eq _ _ _ p P), (key_eq _ _ _ q Q), Tp, Tq, !chN, C in H. cbn [negb andb tyN lex_lt] in H. destruct H as [H|[_ [H|[_ H]]]]; auto; lia. Qed.
Lemma key_succL : forall k p, n - p <= k -> p < n -> ty str p = false -> lex_lt (K false (S p)) (K false p).
Proof.
  induction k as [|k IH]; intros p H P T; [lia|]. destruct (L_step str maxv HV p P T) as [S1 [C|[C T1]]]. - apply key_head; auto.
  - unfold K. rewrite (key_eq _ _ _ (S p) S1), (key_eq _ _ _ p P), T, T1, !chN, C. right. split; auto. right. split; auto. apply IH; auto. lia.
Qed.
Lemma key_succS : forall k p, n - p <= k -> S p < n -> ty str p = true -> lex_lt (K true p) (K true (S p)).
Proof.
  induction k as [|k IH]; intros p H P T; [lia|]. destruct (S_step str maxv HV p P T) as [C|[C T1]]. - apply key_head; auto. lia.
  - unfold K. rewrite (key_eq _ _ _ (S p) P), (key_eq _ _ _ p), T, T1, !chN, C by (fold n; lia). right. split; auto. right. split; auto. apply IH; auto; [lia|]. assert (S p <> n - 1); [|lia]. intros E.
    pose proof (ch_pos str maxv HV p ltac:(fold n; lia)). rewrite E in C. unfold n in C. rewrite (ch_last str maxv HV) in C. lia.
Qed.

(** the keys without the ranks *)
Lemma key_weak : forall k cur p q, n - p <= k -> lex_lt (K cur p) (K cur q) -> lex_lt (ekey str cur p) (ekey str cur q) \/ ekey str cur p = ekey str cur q.
Proof.
  unfold K, ekey. induction k as [|k IH]; intros cur p q H L; destruct (le_lt_dec n p) as [P|P]; try lia.
  - rewrite !(key_end _ _ _ p P) in *. destruct (le_lt_dec n q) as [Q|Q]; [rewrite (key_end _ _ _ q Q); auto|]. left. rewrite key_eq by auto. destruct (negb cur && ty str q); exact I.
  - rewrite !(key_end _ _ _ p P) in *. destruct (le_lt_dec n q) as [Q|Q]; [rewrite (key_end _ _ _ q Q); auto|]. left. rewrite key_eq by auto. destruct (negb cur && ty str q); exact I.
  - destruct (le_lt_dec n q) as [Q|Q]. { rewrite (key_end _ _ _ q Q) in L. destruct (key str rk cur p); contradiction. }
    rewrite !(key_eq _ _ _ p P), !(key_eq _ _ _ q Q) in *. destruct (negb cur && ty str p) eqn:A, (negb cur && ty str q) eqn:B; cbn [lex_lt] in *.
    + destruct L as [L|[-> _]]; auto.
    + destruct L as [L|[-> L]]; auto. apply andb_prop in A. destruct A as [A1 A2]. rewrite A1 in B. cbn [andb] in B. rewrite B in *. cbn [tyN] in *. destruct L as [L|[L _]]; lia.
    + destruct L as [L|[-> L]]; auto. apply andb_prop in B. destruct B as [B1 B2]. rewrite B1 in A. cbn [andb] in A. rewrite A in *. cbn [tyN] in *. left. right. split; auto.  left. reflexivity.
    + destruct L as [L|[-> L]]; auto. destruct (ty str p) eqn:Tp, (ty str q) eqn:Tq; cbn [tyN] in *.
      * destruct L as [L|[_ L]]; [lia|]. apply IH in L; [|lia]. destruct L as [L|L]; [left; right; split; auto|right; rewrite L; reflexivity].
      * destruct L as [L|[L _]]; lia.
      * left. right. split; auto. left. reflexivity.
      * destruct L as [L|[_ L]]; [lia|]. apply IH in L; [|lia]. destruct L as [L|L]; [left; right; split; auto|right; rewrite L; reflexivity].
Qed.
Lemma key_strong : forall k cur p q, n - p <= k -> lex_lt (ekey str cur p) (ekey str cur q) -> lex_lt (K cur p) (K cur q).
Proof.
  unfold K, ekey. induction k as [|k IH]; intros cur p q H L; destruct (le_lt_dec n p) as [P|P]; try lia.
  - rewrite !(key_end _ _ _ p P) in *. destruct (le_lt_dec n q) as [Q|Q]; [rewrite !(key_end _ _ _ q Q) in *; auto|]. rewrite key_eq by auto. destruct (negb cur && ty str q); exact I.
  - rewrite !(key_end _ _ _ p P) in *. destruct (le_lt_dec n q) as [Q|Q]; [rewrite !(key_end _ _ _ q Q) in *; auto|]. rewrite key_eq by auto. destruct (negb cur && ty str q); exact I.
  - destruct (le_lt_dec n q) as [Q|Q]. { rewrite (key_end _ _ _ q Q) in L. destruct (key str (fun _ => 0%N) cur p); contradiction. }
    rewrite !(key_eq _ _ _ p P), !(key_eq _ _ _ q Q) in *. destruct (negb cur && ty str p) eqn:A, (negb cur && ty str q) eqn:B; cbn [lex_lt] in *.
    + destruct L as [L|[-> [L|[_ [L|[_ []]]]]]]; auto; lia.
    + destruct L as [L|[-> L]]; auto. apply andb_prop in A. destruct A as [A1 A2]. rewrite A1 in B. cbn [andb] in B. rewrite B in *. cbn [tyN] in *. destruct L as [L|[L _]]; lia.
    + destruct L as [L|[-> L]]; auto. apply andb_prop in B. destruct B as [B1 B2]. rewrite B1 in A. cbn [andb] in A. rewrite A in *. cbn [tyN] in *. right. split; auto. left. reflexivity.
    + destruct L as [L|[-> L]]; auto. right. split; auto. destruct (ty str p) eqn:Tp, (ty str q) eqn:Tq; cbn [tyN] in *.
      * destruct L as [L|[_ L]]; [lia|]. right. split; auto. apply IH; auto. lia.
      * destruct L as [L|[L _]]; lia.
      * left. reflexivity.
      * destruct L as [L|[_ L]]; [lia|]. right. split; auto. apply IH; auto. lia.
Qed.
End Rk.

Lemma ss_inj : forall (f : nat -> N) l, StronglySorted (fun p q => (f p < f q)%N) l -> forall p q, In p l -> In q l -> f p = f q -> p = q.
Proof.
  intros f. induction 1 as [|x l Sl IH F]; intros p q P Q E; [destruct P|]. rewrite Forall_forall in F. destruct P as [<-|P], Q as [<-|Q]; auto.
  - specialize (F q Q). lia. - specialize (F p P). lia.
Qed.
Theorem induce_any : forall rk order, NoDup order -> (forall i, In i order <-> i < length lms) -> StronglySorted (fun p q => (rk p < rk q)%N) (map (fun i => nth i lms 0) (rev order)) ->
  exists U, induce maxv str (classified str) lms order = Ok (map Some U) /\ Permutation U (seq 0 n) /\ StronglySorted (fun p q => lex_lt (key str rk true p) (key str rk true q)) U.
Proof.
  intros rk order ND IO RS. apply (induce_keyed str maxv HV (key str rk false) (key str rk true)); auto.
  - intros p P T. rewrite !(key_eq _ _ _ p P), T. reflexivity.
  - intros p q P Q E. apply (key_inj rk) with (k := n) (cur := true) (p := p) (q := q); auto; try lia; try discriminate. intros a b A B. apply (ss_inj rk _ RS); apply (in_R str maxv HV order IO); auto.
  - apply key_head. - apply key_head.
  - intros p q P Q C T. apply (lmsb_spec str maxv HV) in Q. apply key_LS; tauto.
  - intros p q P Q C T T'. apply key_LS; auto.
  - intros p q P Q A B C H. apply key_tailL; auto.
  - intros p P T. apply (key_succL rk n); auto. lia.
  - intros p q P Q A B C H. apply key_tailS; auto; unfold n; lia.
  - intros p P T. apply (key_succS rk n); auto. lia.
  - intros c. assert (IN : forall p, In p (filter (fun p => ch str p =? c) (map (fun i => nth i lms 0) (rev order))) -> p < n /\ ty str p = true /\ ch str p = c).
    { intros p P. apply filter_In in P. destruct P as [P C]. apply Nat.eqb_eq in C. apply (in_R str maxv HV order IO) in P. apply (lmsb_spec str maxv HV) in P. tauto. }
    apply ss_ext with (lt := fun p q => (rk p < rk q)%N); [|apply ss_filter; exact RS]. intros x y X Y L. apply IN in X, Y. destruct X as (X1 & X2 & X3), Y as (Y1 & Y2 & Y3).
    rewrite (key_eq _ _ _ x X1), (key_eq _ _ _ y Y1), X2, Y2, !chN, X3, Y3. cbn [negb andb]. right. split; auto. right. split; auto. left. exact L.
Qed.
End Any.
