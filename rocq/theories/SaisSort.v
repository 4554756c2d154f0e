(** SA-IS: what [sais] returns on a string and its reduced string; the strings it sorts. *)
From Coq Require Import List NArith ZArith Arith Bool Lia Permutation Sorted.
From Verif Require Import Base Spec5 Spec6 SuffixModel LcpProof SaisRows SaisPut SaisInduce SaisKey SaisOrder SaisName SaisTotal.
Import ListNotations.
Local Open Scope nat_scope.

Section One.
Variables (str : list N) (maxv : nat).
Hypothesis HV : valid str maxv.
Let n := length str.
Let ts := classified str.
Let lms := find_lms ts.

Lemma first_pass : exists U sub k last, induce maxv str ts lms (rev (seq 0 (length lms))) = Ok (map Some U) /\ Permutation U (seq 0 n) /\ StronglySorted (fun p q => lex_lt (key str N.of_nat true p) (key str N.of_nat true q)) U /\
  foldM (name_step str ts) (map Some U) (repeat None n, 0, 0) = Ok (sub, k, last) /\ Names str N.of_nat U sub k last /\ squeeze (length lms) sub = Ok (map (nmf sub) lms).
Proof.
  destruct (induce_any str maxv HV N.of_nat (rev (seq 0 (length lms)))) as (U & E & P & SS).
  - apply NoDup_rev, seq_NoDup.
  - intros i. rewrite <- in_rev, in_seq. fold ts. fold lms. lia.
  - rewrite rev_involutive. fold ts. fold lms. rewrite nth_seq_map. apply ss_ext with (lt := lt); [intros; lia|]. apply (lms_sorted str maxv HV).
  - destruct (names_all str maxv HV N.of_nat U P SS) as (sub & k & last & EN & NM). exists U, sub, k, last. split; auto. split; auto. split; auto. split; auto. split; auto.
    assert (SN : somes sub = map (nmf sub) lms) by apply (somes_names str maxv HV _ _ _ _ _ P NM). rewrite <- SN. apply squeeze_ok. rewrite SN, map_length. reflexivity.
Qed.
(** countShared does not wrap *)
Lemma names_few : forall rk U sub k last, Permutation U (seq 0 n) -> Names str rk U sub k last -> incl (seq 0 (S k)) (map (nmf sub) lms) /\ S k <= length lms.
Proof.
  intros rk U sub k last PU H. assert (IU : forall p, p < n -> In p U) by (intros p P; apply (Permutation_in _ (Permutation_sym PU)); apply in_seq; lia).
  assert (last_pos : 0 < last). { pose proof (lms_last str maxv HV) as X. destruct (nm_last _ _ _ _ _ _ H) as [(_ & _ & A)|(A1 & A2 & _)]; [rewrite A in X; [discriminate|apply IU; pose proof (n2 str maxv HV); fold n; lia]|]. apply (lmsb_spec str maxv HV) in A2. lia. }
  assert (ON : incl (seq 0 (S k)) (map (nmf sub) lms)).
  { intros v V. apply in_seq in V. destruct (nm_onto _ _ _ _ _ _ H v ltac:(lia) last_pos) as (p & _ & P & <-). apply in_map. apply (in_lms str maxv HV). exact P. }
  split; [exact ON|]. pose proof (NoDup_incl_length (seq_NoDup (S k) 0) ON) as GE. now rewrite seq_length, map_length in GE.
Qed.
Lemma shared_zero : forall rk U sub k last, Permutation U (seq 0 n) -> Names str rk U sub k last -> length lms = S k <-> (forall p q, lmsb str p = true -> lmsb str q = true -> ekey str true p = ekey str true q -> p = q).
Proof.
  intros rk U sub k last PU H. assert (IU : forall p, p < n -> In p U) by (intros p P; apply (Permutation_in _ (Permutation_sym PU)); apply in_seq; lia).
  assert (LT : forall p, lmsb str p = true -> p < n) by (intros p P; apply (lmsb_spec str maxv HV) in P; tauto).
  assert (IN : forall p, In p lms <-> lmsb str p = true) by (intros; apply (in_lms str maxv HV)).
  assert (EQ : forall p q, lmsb str p = true -> lmsb str q = true -> ekey str true p = ekey str true q <-> nmf sub p = nmf sub q).
  { intros p q P Q. pose proof (nm_lt _ _ _ _ _ _ H p q (IU _ (LT _ P)) (IU _ (LT _ Q)) P Q) as A. pose proof (nm_lt _ _ _ _ _ _ H q p (IU _ (LT _ Q)) (IU _ (LT _ P)) Q P) as B. split.
    - intros E. rewrite E in A, B. pose proof (lex_lt_irrefl (ekey str true q)). destruct (lt_eq_lt_dec (nmf sub p) (nmf sub q)) as [[X|X]|X]; tauto.
    - intros E. destruct (list_eq_dec N.eq_dec (ekey str true p) (ekey str true q)) as [X|X]; auto. apply lex_lt_total in X. rewrite A, B in X. lia. }
  pose proof (lms_nth_last str maxv HV) as [_ LL]. fold ts in LL. fold lms in LL.
  destruct (names_few _ _ _ _ _ PU H) as [ON GE]. split.
  - intros Z. assert (ND : NoDup (map (nmf sub) lms)).
    { apply NoDup_incl_NoDup with (l := seq 0 (S k)); [apply seq_NoDup|rewrite seq_length, map_length; lia|exact ON]. }
    intros p q P Q E. apply EQ in E; auto. apply IN in P, Q. revert ND P Q E. clear. induction lms as [|x l IH]; intros ND P Q E; [destruct P|]. cbn [map] in ND. inversion ND as [|? ? Nx Nl]; subst.
    destruct P as [->|P], Q as [->|Q]; auto; exfalso; apply Nx; [rewrite E|rewrite <- E]; apply in_map; auto.
  - intros I. assert (ND : NoDup (map (nmf sub) lms)).
    { assert (G : forall l, NoDup l -> (forall p, In p l -> In p lms) -> NoDup (map (nmf sub) l)). { induction 1 as [|x l Nx Nl IH]; intros HI; [constructor|]. cbn [map]. constructor; [|apply IH; intros; apply HI; right; auto].
        intros X. apply in_map_iff in X. destruct X as (y & Y1 & Y2). assert (Ly : lmsb str y = true) by (apply IN, HI; right; auto). assert (Lx : lmsb str x = true) by (apply IN, HI; left; auto).
        apply (EQ y x Ly Lx) in Y1. apply (I y x Ly Lx) in Y1. congruence. }
      apply G; auto. apply (nodup_lms str). }
    assert (length (map (nmf sub) lms) <= length (seq 0 (S k))); [|rewrite map_length, seq_length in *; lia]. apply NoDup_incl_length; auto. intros v V. apply in_map_iff in V. destruct V as (p & <- & P). apply IN in P. apply in_seq. pose proof (nm_max _ _ _ _ _ _ H p (IU _ (LT _ P)) P). lia.
Qed.
(** all names differ: the first pass is the result *)
Lemma sais_first : forall fuel, (forall p q, lmsb str p = true -> lmsb str q = true -> ekey str true p = ekey str true q -> p = q) ->
  exists U, sais (S fuel) str maxv = Ok (map Some U) /\ Permutation U (seq 0 n) /\ StronglySorted (fun p q => lex_lt (key str N.of_nat true p) (key str N.of_nat true q)) U.
Proof.
  intros fuel I. destruct first_pass as (U & sub & k & last & E1 & P & SS & E2 & NM & E3). exists U. split; auto. cbn [sais]. fold ts. fold lms. rewrite E1. cbn [bind]. fold n. rewrite E2. cbn [bind]. rewrite E3. cbn [bind].
  apply (shared_zero _ _ _ _ _ P NM) in I. rewrite I, Nat.eqb_refl. reflexivity.
Qed.
(** otherwise the reduced string is sorted first *)
Lemma sais_again : forall fuel p q, lmsb str p = true -> lmsb str q = true -> ekey str true p = ekey str true q -> p <> q ->
  exists U0 sub k last, Permutation U0 (seq 0 n) /\ Names str N.of_nat U0 sub k last /\ let red := map N.of_nat (map (nmf sub) lms) in valid red k /\ length red = length lms /\ length lms < n /\
    forall W, sais fuel red k = Ok (map Some W) -> Permutation W (seq 0 (length lms)) ->
    (exists U rk, sais (S fuel) str maxv = Ok (map Some U) /\ Permutation U (seq 0 n) /\ StronglySorted (fun p q => lex_lt (key str rk true p) (key str rk true q)) U) /\
    (StronglySorted (fun a b => lex_lt (skipn a red) (skipn b red)) W -> exists U, sais (S fuel) str maxv = Ok (map Some U) /\ Permutation U (seq 0 n) /\ StronglySorted (fun p q => lex_lt (skipn p str) (skipn q str)) U).
Proof.
  intros fuel p q Lp Lq EE NE. destruct first_pass as (U & sub & k & last & E1 & P & SS & E2 & NM & E3). exists U, sub, k, last. split; auto. split; auto. cbn zeta. set (red := map N.of_nat (map (nmf sub) lms)).
  assert (SH : length lms <> S k). { intros Z. apply NE. exact (proj1 (shared_zero _ _ _ _ _ P NM) Z p q Lp Lq EE). }
  destruct (names_few _ _ _ _ _ P NM) as [_ FEW]. assert (Vr : valid red k) by (apply (reduced_valid str maxv HV _ _ _ _ _ P NM); fold ts; fold lms; lia).
  split; auto. split; [unfold red; rewrite !map_length; auto|]. split; [apply (lms_short str maxv HV)|]. intros W EW PW.
  assert (UN : sais (S fuel) str maxv = induce maxv str ts lms (rev W)).
  { cbn [sais]. fold ts. fold lms. rewrite E1. cbn [bind]. fold n. rewrite E2. cbn [bind]. rewrite E3. cbn [bind]. destruct (Nat.eqb_spec (length lms) (S k)); [contradiction|]. fold red. rewrite EW. cbn [bind]. rewrite mapM_somes. reflexivity. }
  assert (NW : NoDup W) by (apply (Permutation_NoDup (Permutation_sym PW)), seq_NoDup).
  assert (IW : forall i, In i (rev W) <-> i < length lms). { intros i. rewrite <- in_rev. split; intros X; [apply (Permutation_in _ PW) in X; apply in_seq in X; lia|apply (Permutation_in _ (Permutation_sym PW)); apply in_seq; lia]. }
  assert (IW' : forall i, In i W -> i < length lms) by (intros i X; apply IW; rewrite <- in_rev; auto).
  rewrite UN. split.
  - set (R := map (fun i => nth i lms 0) W). assert (NR : NoDup R).
    { unfold R. revert NW IW'. clear -HV. pose proof (lms_sorted str maxv HV) as SS. fold ts in SS. fold lms in SS. induction 1 as [|x l Nx Nl IH]; intros B; [constructor|]. cbn [map]. constructor; [|apply IH; intros; apply B; right; auto].
      intros X. apply in_map_iff in X. destruct X as (y & Y1 & Y2). assert (y <> x) by congruence. pose proof (B x (or_introl eq_refl)). pose proof (B y (or_intror Y2)). destruct (lt_eq_lt_dec x y) as [[X|X]|X]; [|congruence|]; pose proof (ss_nth _ _ _ 0 SS _ _ X ltac:(lia)); lia. }
    destruct (induce_any str maxv HV (fun p => N.of_nat (index p R)) (rev W)) as (U' & E' & P' & SS').
    + apply NoDup_rev; auto. + exact IW. + rewrite rev_involutive. apply index_sorted. exact NR.
    + exists U', (fun p => N.of_nat (index p R)). auto.
  - intros SW. apply (induce_suffix str maxv HV (rev W)); [apply NoDup_rev; auto|exact IW|]. intros c. rewrite rev_involutive. apply ss_filter.
    fold ts. fold lms. clear -SW IW' P NM HV. induction SW as [|x l Sl IH F]; [constructor|]. cbn [map]. constructor; [apply IH; intros; apply IW'; right; auto|]. apply Forall_forall. intros y Y. apply in_map_iff in Y. destruct Y as (b & <- & B). rewrite Forall_forall in F.
    apply (reduced_order str maxv HV _ _ _ _ _ P NM (length lms)); fold ts; fold lms; try lia; [apply IW'; left; auto|apply IW'; right; auto|]. apply F. exact B.
Qed.
Lemma names_dec : (forall p q, lmsb str p = true -> lmsb str q = true -> ekey str true p = ekey str true q -> p = q) \/ exists p q, lmsb str p = true /\ lmsb str q = true /\ ekey str true p = ekey str true q /\ p <> q.
Proof.
  destruct first_pass as (U & sub & k & last & _ & P & _ & _ & NM & _). destruct (Nat.eq_dec (length lms) (S k)) as [Z|Z]; [left; apply (shared_zero _ _ _ _ _ P NM); auto|right].
  assert (G : forall l, (forall p q, In p l -> In q l -> ekey str true p = ekey str true q -> p = q) \/ exists p q, In p l /\ In q l /\ ekey str true p = ekey str true q /\ p <> q).
  { induction l as [|x l [IH|(p & q & A)]]; [left; intros p q []| |right; exists p, q; cbn [In]; tauto].
    destruct (Exists_dec (fun y => ekey str true x = ekey str true y /\ x <> y) l) as [X|X].
    - intros y. destruct (list_eq_dec N.eq_dec (ekey str true x) (ekey str true y)), (Nat.eq_dec x y); [right; tauto|left; auto|right; tauto|right; tauto].
    - right. apply Exists_exists in X. destruct X as (y & Y1 & Y2 & Y3). exists x, y. cbn [In]. auto.
    - left. intros p q [<-|A] [<-|B] E; auto.
      + destruct (Nat.eq_dec x q); auto. exfalso. apply X. apply Exists_exists. exists q. auto.
      + destruct (Nat.eq_dec p x); auto. exfalso. apply X. apply Exists_exists. exists p. split; auto. }
  destruct (G lms) as [I|(p & q & A & B & C)].
  - exfalso. apply Z. apply (shared_zero _ _ _ _ _ P NM). intros p q A B. apply I; apply (in_lms str maxv HV); auto.
  - exists p, q. split; [apply (in_lms str maxv HV); auto|]. split; [apply (in_lms str maxv HV); auto|exact C].
Qed.
End One.

(** it always completes, with a permutation sorted up to the next valley *)
Theorem sais_ok : forall fuel str maxv, valid str maxv -> length str <= fuel ->
  exists U rk, sais fuel str maxv = Ok (map Some U) /\ Permutation U (seq 0 (length str)) /\ StronglySorted (fun p q => lex_lt (key str rk true p) (key str rk true q)) U.
Proof.
  induction fuel as [|fuel IH]; intros str maxv HV LF; [pose proof (n2 str maxv HV); lia|]. destruct (names_dec str maxv HV) as [I|(p & q & P & Q & E & NE)].
  - destruct (sais_first str maxv HV fuel I) as (U & A & B & C). exists U, N.of_nat. auto.
  - destruct (sais_again str maxv HV fuel p q P Q E NE) as (U0 & sub & k & last & P0 & NM & G). cbn zeta in G. destruct G as (V & L & LT & G). destruct (IH _ _ V) as (W & rk & A & B & _); [lia|]. rewrite L in B. destruct (G W A B) as [X _]. exact X.
Qed.
