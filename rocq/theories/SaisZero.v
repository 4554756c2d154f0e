(** SA-IS on strings in which the terminating zero is not the only one. *)
From Coq Require Import List NArith ZArith Arith Bool Lia Permutation Sorted.
From Verif Require Import Base SuffixModel SaisRows SaisPut SaisInduce.
Import ListNotations.
Local Open Scope nat_scope.

Lemma nodup_concat : forall (g : nat -> nat) (f : nat -> list nat) k, (forall c, c < k -> NoDup (f c)) -> (forall c p, c < k -> In p (f c) -> g p = c) -> NoDup (concat (map f (seq 0 k))).
Proof.
  intros g f. induction k as [|k IH]; intros N H; [constructor|]. rewrite seq_S, map_app, concat_app. cbn [Nat.add map concat]. rewrite app_nil_r.
  assert (N1 : NoDup (concat (map f (seq 0 k)))) by (apply IH; intros; [apply N|apply H]; auto; lia).
  assert (N2 : NoDup (f k)) by (apply N; lia).
  assert (D : forall p, In p (concat (map f (seq 0 k))) -> g p < k).
  { intros p P. apply in_concat in P. destruct P as (l & L & P). apply in_map_iff in L. destruct L as (c & <- & C). apply in_seq in C. rewrite (H c p); auto; lia. }
  clear IH N. induction (concat (map f (seq 0 k))) as [|x l IHl]; [exact N2|]. inversion N1; subst. cbn [app]. constructor.
  - intros X. apply in_app_or in X. destruct X as [X|X]; [auto|]. pose proof (D x (or_introl eq_refl)). rewrite (H k x) in H0; auto; lia.
  - apply IHl; auto. intros; apply D; right; auto.
Qed.

Section Zero.
Variables (str : list N) (maxv : nat).
Hypothesis HV : ended str maxv.
Notation n := (length str).
Notation m := (S maxv).
Notation ts := (classified str).
Notation lms := (find_lms (classified str)).
Notation chr := (ch str).
Notation typ := (ty str).

Lemma zero_S : forall k p, n - p <= k -> p < n -> chr p = 0 -> typ p = true.
Proof.
  induction k as [|k IH]; intros p K P Z; [lia|]. destruct (typ p) eqn:E; auto. destruct (L_step str maxv HV p P E) as (L & [Q|[Q Q']]); [lia|]. rewrite (IH (S p)) in Q'; [discriminate|lia|auto|lia].
Qed.

(** lists of positions of one character and one type for each bucket *)
Definition good (t : bool) (f : nat -> list nat) : Prop := forall c, c < m -> NoDup (f c) /\ forall p, In p (f c) -> p < n /\ chr p = c /\ typ p = t.
Lemma good_nodup : forall L R, good false L -> good true R -> NoDup (somes (pic str maxv L R)).
Proof.
  intros L R GL GR. unfold pic. rewrite somes_flat. rewrite (map_ext _ (fun c => L c ++ R c)) by (intros c; apply somes_row). apply (nodup_concat chr).
  - intros c C. destruct (GL c C) as [N1 M1], (GR c C) as [N2 M2]. clear GL GR. induction (L c) as [|x l IH]; [exact N2|]. inversion N1; subst. cbn [app]. constructor.
    + intros X. apply in_app_or in X. destruct X as [X|X]; auto. destruct (M1 x (or_introl eq_refl)) as (_ & _ & A), (M2 x X) as (_ & _ & B). congruence.
    + apply IH; auto. intros; apply M1; right; auto.
  - intros c p C P. apply in_app_or in P. destruct P as [P|P]; [destruct (GL c C) as [_ M]|destruct (GR c C) as [_ M]]; destruct (M p P) as (_ & A & _); exact A.
Qed.
Lemma good_in : forall L R p, In (Some p) (pic str maxv L R) -> good false L -> good true R -> p < n /\ (In p (L (chr p)) \/ In p (R (chr p))) /\ chr p < m.
Proof.
  intros L R p P GL GR. apply in_somes in P. unfold pic in P. rewrite somes_flat in P. apply in_concat in P. destruct P as (l & A & B). apply in_map_iff in A. destruct A as (c & <- & C). apply in_seq in C.
  unfold cells in B. rewrite somes_row in B. apply in_app_or in B. destruct B as [B|B].
  - destruct (GL c ltac:(lia)) as [_ M]. destruct (M p B) as (P1 & P2 & _). rewrite P2. split; auto. split; [auto|lia].
  - destruct (GR c ltac:(lia)) as [_ M]. destruct (M p B) as (P1 & P2 & _). rewrite P2. split; auto. split; [auto|lia].
Qed.
Lemma good_cap : forall L R c, good false L -> good true R -> c < m -> forall add, NoDup (add ++ L c ++ R c) -> (forall p, In p add -> p < n /\ chr p = c) -> length add + (length (L c) + length (R c)) <= cnt str c.
Proof.
  intros L R c GL GR C add N H. rewrite <- !app_length. apply (cap str maxv HV); auto. intros p P. apply in_app_or in P. destruct P as [P|P]; auto. apply in_app_or in P.
  destruct P as [P|P]; [destruct (GL c C) as [_ M]|destruct (GR c C) as [_ M]]; destruct (M p P) as (A & B & _); auto.
Qed.
Lemma good_app : forall L R c, good false L -> good true R -> c < m -> NoDup (L c ++ R c).
Proof.
  intros L R c GL GR C. destruct (GL c C) as [N1 M1], (GR c C) as [N2 M2]. clear GL GR. induction (L c) as [|x l IH]; [exact N2|]. inversion N1; subst. cbn [app]. constructor.
  + intros X. apply in_app_or in X. destruct X as [X|X]; auto. destruct (M1 x (or_introl eq_refl)) as (_ & _ & A), (M2 x X) as (_ & _ & B). congruence.
  + apply IH; auto. intros; apply M1; right; auto.
Qed.
Lemma nil_good : forall t, good t (fun _ => []).
Proof. intros t c C. split; [constructor|intros p []]. Qed.
Lemma sa_length : forall z bs sa L R, St str maxv z bs sa L R -> length sa = n.
Proof. intros z bs sa L R S. rewrite (st_sa _ _ _ _ _ _ _ S). apply (pic_length str maxv HV). apply (st_cap _ _ _ _ _ _ _ S). Qed.
Lemma lget_ty : forall id, id < n -> lget ts id = Ok (typ id).
Proof. intros id H. apply lget_nth. rewrite (ts_len str maxv HV). exact H. Qed.

(** *** Step 2 *)
Lemma left_any : forall SL bs sa, good true SL -> St str maxv false bs sa (fun _ => []) SL ->
  exists bs' sa' L, foldM (induce_step str ts false) (seq 0 n) (bs, sa) = Ok (bs', sa') /\ St str maxv false bs' sa' L SL /\ keeps sa sa' /\ good false L.
Proof.
  intros SL bs sa GS S0. assert (G : forall k, k <= n -> exists bs' sa' L, foldM (induce_step str ts false) (seq 0 k) (bs, sa) = Ok (bs', sa') /\ St str maxv false bs' sa' L SL /\ keeps sa sa' /\ good false L /\
    forall c p, c < m -> In p (L c) -> exists i, i < k /\ nth_error sa' i = Some (Some (S p))).
  { induction k as [|k IH]; intros K.
    - exists bs, sa, (fun _ => []). split; [reflexivity|]. split; auto. split; [intros j p; auto|]. split; [apply nil_good|intros c p _ []].
    - destruct IH as (bs1 & sa1 & L & E & S1 & K1 & GL & H1); [lia|]. rewrite seq_S, foldM_app, E. cbn [bind foldM Nat.add]. unfold induce_step. pose proof (sa_length _ _ _ _ _ S1) as LS. rewrite (lget_nth _ _ k None) by lia. cbn [bind].
      assert (same : exists bs' sa' L0, Ok (bs1, sa1) = Ok (bs', sa') /\ St str maxv false bs' sa' L0 SL /\ keeps sa sa' /\ good false L0 /\ forall c p, c < m -> In p (L0 c) -> exists i, i < S k /\ nth_error sa' i = Some (Some (S p))).
      { exists bs1, sa1, L. split; auto. split; auto. split; auto. split; auto. intros c p C P. destruct (H1 c p C P) as (i & I & J). exists i. split; auto. }
      destruct (nth k sa1 None) as [[|id]|] eqn:X; try exact same. cbn [bind].
      assert (EX : nth_error sa1 k = Some (Some (S id))) by (rewrite <- X; apply nth_error_nth'; lia).
      assert (IX : In (Some (S id)) (pic str maxv L SL)) by (rewrite <- (st_sa _ _ _ _ _ _ _ S1); eapply nth_error_In; eauto).
      destruct (good_in _ _ _ IX GL GS) as (B & _ & _). rewrite lget_ty by lia. cbn [bind]. destruct (typ id) eqn:T; cbn [Bool.eqb]; [exact same|].
      rewrite (lget_nth _ _ id 0%N) by lia. cbn [bind]. set (x := nth id str 0%N). assert (Ex : N.to_nat x = chr id) by reflexivity. assert (C : chr id < m) by (apply (ch_lt str maxv HV); lia).
      assert (NI : ~ In id (L (chr id))).
      { intros I. destruct (H1 _ _ C I) as (i & I1 & I2). assert (i = k); [|lia]. apply (somes_unique sa1 i k (S id)); auto. rewrite (st_sa _ _ _ _ _ _ _ S1). apply good_nodup; auto. }
      assert (NR : ~ In id (SL (chr id))). { intros I. destruct (GS _ C) as [_ M]. destruct (M id I) as (_ & _ & Q). congruence. }
      assert (ND : NoDup ([id] ++ L (chr id) ++ SL (chr id))). { cbn [app]. constructor; [|apply good_app; auto]. intros Q. apply in_app_or in Q. tauto. }
      destruct (put_left str maxv HV false bs1 sa1 L SL x id S1) as (bs2 & sa2 & pos & EP & S2 & K2).
      { rewrite Ex. exact C. } { discriminate. } { rewrite Ex. pose proof (good_cap L SL _ GL GS C [id] ND) as Q. cbn [length] in Q. assert (Hq : forall p, In p [id] -> p < n /\ chr p = chr id) by (intros p [<-|[]]; split; auto; lia). specialize (Q Hq). lia. }
      rewrite EP. cbn [bind]. rewrite Ex in S2. exists bs2, sa2, (putf L (chr id) (L (chr id) ++ [id])). split; [reflexivity|]. split; [exact S2|]. split; [intros j p J; apply K2, K1, J|]. split.
      + intros c Hc. unfold putf. destruct (Nat.eqb_spec c (chr id)) as [->|]; [|apply GL; auto]. destruct (GL _ C) as [N1 M1]. split.
        * apply NoDup_rev in N1. rewrite <- (rev_involutive (L (chr id) ++ [id])). apply NoDup_rev. rewrite rev_app_distr. cbn [rev app]. constructor; auto. rewrite <- in_rev. exact NI.
        * intros p P. apply in_app_or in P. destruct P as [P|[<-|[]]]; auto. split; auto. lia.
      + intros c p Hc P. unfold putf in P. assert (Q : In p (L c) \/ p = id). { destruct (Nat.eqb_spec c (chr id)) as [->|]; [|left; auto]. apply in_app_or in P. destruct P as [P|[<-|[]]]; auto. }
        destruct Q as [Q| ->]; [destruct (H1 c p Hc Q) as (i & I1 & I2); exists i; split; [lia|apply K2; auto]|exists k; split; [lia|apply K2; auto]]. }
  destruct (G n (le_n n)) as (bs' & sa' & L & E & S1 & K & GL & _). exists bs', sa', L. auto.
Qed.

(** *** Step 3: the LMS suffixes are removed again, except the one in front *)
Lemma pic_at : forall L R c k, (forall c, c < m -> length (L c) + length (R c) <= cnt str c) -> c < m -> k < cnt str c -> nth (start (cnt str) c + k) (pic str maxv L R) None = nth k (row (L c) (R c) (cnt str c)) None.
Proof. intros L R c k H C K. unfold pic. change (row (L c) (R c) (cnt str c)) with (cells str L R c). apply (flat_nth (cnt str)); auto. apply (cells_fit str maxv HV); auto. Qed.
Lemma pic_head : forall L R, (forall c, c < m -> length (L c) + length (R c) <= cnt str c) -> 0 < cnt str 0 -> nth 0 (pic str maxv L R) None = nth 0 (row (L 0) (R 0) (cnt str 0)) None.
Proof. intros L R H C. apply (pic_at L R 0 0); auto. lia. Qed.
Lemma L0_nil : forall L, good false L -> L 0 = [].
Proof. intros L G. destruct (L 0) as [|p l] eqn:E; auto. destruct (G 0 ltac:(lia)) as [_ M]. destruct (M p) as (A & B & C); [rewrite E; left; auto|]. rewrite (zero_S n p) in C; [discriminate|lia|auto|auto]. Qed.

Lemma clear_any : forall L SL bs sa poses, good false L -> good true SL -> (forall c p, c < m -> In p (SL c) -> lmsb str p = true) -> St str maxv false bs sa L SL -> length poses = length lms ->
  (forall i, i < length lms -> nth_error sa (nth i poses 0) = Some (Some (nth i lms 0))) ->
  foldM (fun sa pos => if pos =? 0 then Ok sa else lset sa pos None) poses sa = Ok (nth 0 sa None :: tl (pic str maxv L (fun _ => []))) /\ St str maxv false (map bk_init_s bs) (pic str maxv L (fun _ => [])) L (fun _ => []).
Proof.
  intros L SL bs sa poses GL GS HL SA LP PP. pose proof (sa_length _ _ _ _ _ SA) as LS. pose proof (n2 str maxv HV) as N2.
  pose proof (st_cap _ _ _ _ _ _ _ SA) as C1.
  assert (C0 : forall c, c < m -> length (L c) + length ((fun _ : nat => @nil nat) c) <= cnt str c). { intros c C. specialize (C1 c C). cbn [length]. lia. }
  split.
  - destruct (clear_ok poses sa) as (sa' & E & L' & V). { intros p P. destruct (In_nth _ _ 0 P) as (i & Hi & <-). specialize (PP i ltac:(lia)). apply nth_error_Some. congruence. }
    rewrite E. f_equal. pose proof (pic_length str maxv HV L (fun _ => []) C0) as PL.
    assert (TL : length (tl (pic str maxv L (fun _ => []))) = n - 1). { destruct (pic str maxv L (fun _ => [])); cbn [tl length] in *; lia. }
    apply nth_ext with (d := None) (d' := None). { cbn [length]. rewrite TL. lia. }
    intros i Hi. rewrite L', LS in Hi. rewrite V. destruct i as [|i']. { reflexivity. } change (negb (S i' =? 0)) with true. cbn [andb nth].
    assert (TN : nth i' (tl (pic str maxv L (fun _ => []))) None = nth (S i') (pic str maxv L (fun _ => [])) None) by (destruct (pic str maxv L (fun _ => [])); [destruct i'|]; reflexivity). rewrite TN. clear TN.
    set (i := S i') in *. pose proof Hi as Hi'. rewrite <- (start_m str maxv HV) in Hi'. destruct (flat_index _ _ _ Hi') as (c & k & C & K & Ei).
    assert (R1 : nth i sa None = nth k (row (L c) (SL c) (cnt str c)) None). { rewrite (st_sa _ _ _ _ _ _ _ SA), Ei. apply pic_at; auto. }
    assert (R2 : nth i (pic str maxv L (fun _ => [])) None = nth k (row (L c) [] (cnt str c)) None). { rewrite Ei. apply (pic_at L (fun _ => [])); auto. }
    rewrite R2. specialize (C1 c C). specialize (C0 c C).
    assert (IN : existsb (Nat.eqb i) poses = true <-> exists p, nth_error sa i = Some (Some p) /\ lmsb str p = true).
    { rewrite existsb_exists. split.
      - intros (j & J & Q). apply Nat.eqb_eq in Q. subst j. destruct (In_nth _ _ 0 J) as (t & Ht & Q). exists (nth t lms 0). rewrite <- Q. split; [apply PP; lia|]. apply (in_lms str maxv HV). apply nth_In. lia.
      - intros (p & P1 & P2). apply (in_lms str maxv HV) in P2. destruct (In_nth _ _ 0 P2) as (t & Ht & <-). specialize (PP t Ht). exists (nth t poses 0). split; [apply nth_In; lia|]. apply Nat.eqb_eq.
        apply (somes_unique sa i _ (nth t lms 0)); auto. rewrite (st_sa _ _ _ _ _ _ _ SA). apply good_nodup; auto. }
    assert (NE : forall p, nth i sa None = Some p -> nth_error sa i = Some (Some p)). { intros p P. rewrite <- P. apply nth_error_nth'. lia. }
    destruct (lt_dec k (length (L c))) as [A|A].
    + rewrite row_nth1 in R1 by auto. rewrite row_nth1 by auto. rewrite R1. destruct (existsb (Nat.eqb i) poses) eqn:Q; auto. exfalso. destruct (proj1 IN eq_refl) as (p & P1 & P2). apply NE in R1. rewrite R1 in P1. injection P1 as P1.
      assert (X : In p (L c)) by (rewrite <- P1; apply nth_In; auto). destruct (GL c C) as [_ M]. destruct (M p X) as (_ & _ & Y). apply (lmsb_spec str maxv HV) in P2. destruct P2 as (_ & _ & _ & P2). congruence.
    + rewrite row_nth2 by (cbn [length] in *; lia). destruct (lt_dec k (cnt str c - length (SL c))) as [B|B].
      * rewrite row_nth2 in R1 by lia. rewrite R1. destruct (existsb _ _); reflexivity.
      * rewrite row_nth3 in R1 by lia. assert (Q : existsb (Nat.eqb i) poses = true); [|rewrite Q; reflexivity]. apply IN. eexists. split; [apply NE; exact R1|].
        apply (HL c); auto. apply nth_In. lia.
  - split; auto.
    + rewrite map_length. apply (st_len _ _ _ _ _ _ _ SA).
    + intros c C _. rewrite nth_error_map, (st_bs _ _ _ _ _ _ _ SA c C) by discriminate. cbn [option_map]. unfold bk_init_s, bucket_at. cbn [bk_index bk_count bk_l bk_s length]. do 2 f_equal. lia.
Qed.

(** *** Step 4 *)
Lemma put_tail : forall bs sa x c id bs' sa' pos, put_bucket bs sa true c id = Ok (bs', sa', pos) -> 1 <= pos -> sa <> [] -> put_bucket bs (x :: tl sa) true c id = Ok (bs', x :: tl sa', pos).
Proof.
  intros bs sa x c id bs' sa' pos H P NE. unfold put_bucket in *. destruct (cget bs c) as [b| | |]; try discriminate. cbn [bind] in *. destruct (bk_full b); [discriminate|]. destruct (bk_s b <? 0)%Z; [discriminate|].
  apply bind_Ok_inv in H. destruct H as (sa1 & E1 & H). destruct (cset bs c _) as [b1| | |]; try discriminate. cbn [bind] in *. injection H as <- <- <-.
  destruct sa as [|y sa]; [congruence|]. cbn [tl]. destruct (Z.to_nat (bk_s b)) as [|q] eqn:Q; [lia|]. cbn [Base.lset] in *.
  apply lset_inv in E1. destruct E1 as [B ->]. cbn [length] in B. rewrite lset_Ok by (cbn [length]; lia). reflexivity.
Qed.

Hypothesis HZ : exists i, i < n - 1 /\ chr i = 0.
Lemma cnt2 : 2 <= cnt str 0.
Proof.
  destruct HZ as (i & I & Z). pose proof (n2 str maxv HV). change 2 with (length [i; n - 1]). apply (cap str maxv HV).
  - constructor; [intros [Q|[]]; lia|]. constructor; [intros []|constructor].
  - intros p [<-|[<-|[]]]; [split; auto; lia|]. split; [lia|apply (ch_last str maxv HV)].
Qed.
Definition inner (R : nat -> list nat) : Prop := forall c p, c < m -> In p (R c) -> S p < n.
Lemma inner_zero : forall R, good true R -> inner R -> length (R 0) < cnt str 0.
Proof.
  intros R G I. pose proof (n2 str maxv HV). apply Nat.lt_le_trans with (length ((n - 1) :: R 0)); [cbn [length]; lia|]. destruct (G 0 ltac:(lia)) as [N M]. apply (cap str maxv HV).
  - constructor; auto. intros X. apply I in X; lia.
  - intros p [<-|P]; [split; [lia|apply (ch_last str maxv HV)]|]. destruct (M p P) as (A & B & _). auto.
Qed.
Lemma head_none : forall L R, good false L -> good true R -> inner R -> (forall c, c < m -> length (L c) + length (R c) <= cnt str c) -> nth 0 (pic str maxv L R) None = None.
Proof. intros L R GL GR I C. pose proof cnt2. pose proof (inner_zero R GR I). rewrite pic_head by (auto; lia). rewrite (L0_nil L GL). apply row_nth2; cbn [length]; lia. Qed.

Lemma right_any : forall L bs x, good false L -> (forall q, x = Some q -> lmsb str q = true) -> St str maxv false bs (pic str maxv L (fun _ => [])) L (fun _ => []) ->
  exists bs' R, foldM (induce_step str ts true) (rev (seq 0 n)) (bs, x :: tl (pic str maxv L (fun _ => []))) = Ok (bs', x :: tl (pic str maxv L R)) /\ St str maxv false bs' (pic str maxv L R) L R /\ good true R /\ inner R.
Proof.
  intros L bs x GL HX S0. pose proof (n2 str maxv HV) as N2.
  assert (G : forall j k, k + j = n -> exists bs' R, foldM (induce_step str ts true) (rev (seq k j)) (bs, x :: tl (pic str maxv L (fun _ => []))) = Ok (bs', x :: tl (pic str maxv L R)) /\ St str maxv false bs' (pic str maxv L R) L R /\ good true R /\ inner R /\
    forall c p, c < m -> In p (R c) -> exists i, k <= i /\ nth_error (pic str maxv L R) i = Some (Some (S p))).
  { induction j as [|j IH]; intros k K.
    - exists bs, (fun _ => []). split; [reflexivity|]. split; auto. split; [apply nil_good|]. split; [intros c p _ []|intros c p _ []].
    - destruct (IH (S k)) as (bs1 & R & E & S1 & GR & IR & H1); [lia|]. cbn [seq rev]. rewrite foldM_app, E. cbn [bind foldM]. unfold induce_step. set (sa := pic str maxv L R) in *. pose proof (sa_length _ _ _ _ _ S1) as LS.
      pose proof (head_none L R GL GR IR (st_cap _ _ _ _ _ _ _ S1)) as HN. fold sa in HN.
      assert (LT : length (x :: tl sa) = n) by (destruct sa; cbn [tl length] in *; lia). rewrite (lget_nth _ _ k None) by lia. cbn [bind].
      assert (same : exists bs' R0, Ok (bs1, x :: tl sa) = Ok (bs', x :: tl (pic str maxv L R0)) /\ St str maxv false bs' (pic str maxv L R0) L R0 /\ good true R0 /\ inner R0 /\
        forall c p, c < m -> In p (R0 c) -> exists i, k <= i /\ nth_error (pic str maxv L R0) i = Some (Some (S p))).
      { exists bs1, R. split; auto. split; auto. split; auto. split; auto. intros c p C P. destruct (H1 c p C P) as (i & I & J). exists i. split; [lia|auto]. }
      destruct (nth k (x :: tl sa) None) as [[|id]|] eqn:X; try exact same. cbn [bind].
      destruct k as [|k'].
      { cbn [nth] in X. destruct x as [q|]; [|discriminate]. injection X as ->. pose proof (HX (S id) eq_refl) as Q. apply (lmsb_spec str maxv HV) in Q. rewrite Nat.sub_succ, Nat.sub_0_r in Q. destruct Q as (_ & Q1 & Q2 & _).
        rewrite lget_ty by lia. cbn [bind]. rewrite Q2. cbn [Bool.eqb]. exact same. }
      set (k := S k') in *. assert (EX : nth_error sa k = Some (Some (S id))).
      { cbn [nth k] in X. assert (Y : nth k sa None = Some (S id)) by (unfold k; rewrite <- X; destruct sa; [destruct k'|]; reflexivity). rewrite <- Y. apply nth_error_nth'. lia. }
      assert (IX : In (Some (S id)) sa) by (eapply nth_error_In; eauto).
      destruct (good_in _ _ _ IX GL GR) as (B & _ & _). rewrite lget_ty by lia. cbn [bind]. destruct (typ id) eqn:T; cbn [Bool.eqb]; [|exact same].
      rewrite (lget_nth _ _ id 0%N) by lia. cbn [bind]. set (y := nth id str 0%N). assert (Ey : N.to_nat y = chr id) by reflexivity. assert (C : chr id < m) by (apply (ch_lt str maxv HV); lia).
      assert (NI : ~ In id (R (chr id))).
      { intros I. destruct (H1 _ _ C I) as (i & I1 & I2). assert (i = k); [|lia]. apply (somes_unique sa i k (S id)); auto. apply good_nodup; auto. }
      assert (NR : ~ In id (L (chr id))). { intros I. destruct (GL _ C) as [_ M]. destruct (M id I) as (_ & _ & Q). congruence. }
      assert (ND : NoDup ([id] ++ L (chr id) ++ R (chr id))). { cbn [app]. constructor; [|apply good_app; auto]. intros Q. apply in_app_or in Q. tauto. }
      destruct (put_right str maxv HV false bs1 sa L R y id S1) as (bs2 & sa2 & pos & EP & S2 & K2 & PO).
      { rewrite Ey. exact C. } { discriminate. } { rewrite Ey. pose proof (good_cap L R _ GL GR C [id] ND) as Q. cbn [length] in Q. assert (Hq : forall p, In p [id] -> p < n /\ chr p = chr id) by (intros p [<-|[]]; split; auto; lia). specialize (Q Hq). lia. }
      rewrite Ey in S2. set (R' := putf R (chr id) (id :: R (chr id))) in *.
      assert (GR' : good true R').
      { intros c Hc. unfold R', putf. destruct (Nat.eqb_spec c (chr id)) as [->|]; [|apply GR; auto]. destruct (GR _ C) as [N1 M1]. split; [constructor; auto|]. intros p [<-|P]; auto. split; auto. lia. }
      assert (IR' : inner R'). { intros c p Hc P. unfold R', putf in P. destruct (Nat.eqb_spec c (chr id)) as [->|]; [|apply (IR c); auto]. destruct P as [<-|P]; [exact B|apply (IR _ p C P)]. }
      pose proof (head_none L R' GL GR' IR' (st_cap _ _ _ _ _ _ _ S2)) as HN2. pose proof (st_sa _ _ _ _ _ _ _ S2) as E2. rewrite <- E2 in HN2.
      assert (P1 : 1 <= pos). { destruct pos; [|lia]. exfalso. destruct sa2; [discriminate|]. cbn [nth_error nth] in *. congruence. }
      rewrite (put_tail _ _ x _ _ _ _ _ EP P1) by (intros Q; rewrite Q in LS; cbn [length] in LS; lia). cbn [bind]. exists bs2, R'. rewrite E2 in *. split; [reflexivity|]. split; [exact S2|]. split; [exact GR'|]. split; [exact IR'|].
      intros c p Hc P. unfold R', putf in P. assert (Q : In p (R c) \/ p = id). { destruct (Nat.eqb_spec c (chr id)) as [->|]; [|left; auto]. destruct P as [<-|P]; auto. }
      destruct Q as [Q| ->]; [destruct (H1 c p Hc Q) as (i & I1 & I2); exists i; split; [lia|apply K2; auto]|exists k; split; [lia|apply K2; auto]]. }
  destruct (G n 0 eq_refl) as (bs' & R & E & S1 & GR & IR & _). exists bs', R. auto.
Qed.

(** ** The first pass *)
Lemma lms_increasing : StronglySorted lt lms.
Proof. unfold find_lms. apply ss_filter. generalize (length ts - 1). generalize 1. clear. intros a k. revert a. induction k as [|k IH]; intros a; [constructor|]. cbn [seq]. constructor; auto. apply Forall_forall. intros x X. apply in_seq in X. lia. Qed.
Lemma map_nth_seq : forall (l : list nat), map (fun i => nth i l 0) (seq 0 (length l)) = l.
Proof. intros l. apply nth_ext with (d := 0) (d' := 0); [now rewrite map_length, seq_length|]. intros i H. rewrite map_length, seq_length in H. rewrite nth_map_seq by auto. reflexivity. Qed.
Theorem induce_zero : exists x L R, induce maxv str ts lms (rev (seq 0 (length lms))) = Ok (x :: tl (pic str maxv L R)) /\ good false L /\ good true R /\ inner R /\
  (forall c, c < m -> length (L c) + length (R c) <= cnt str c) /\
  (x = None \/ exists q, x = Some q /\ q < n - 1 /\ chr q = 0 /\ forall p, p < n -> chr p = 0 -> lmsb str p = true).
Proof.
  unfold induce. destruct (buckets_ok str maxv HV) as (bs0 & EB & B1 & B2). rewrite EB. cbn [bind].
  destruct (lms_phase str maxv HV bs0 B1 B2 (rev (seq 0 (length lms)))) as (bs & sa & poses & E1 & S1 & LP & PP). { apply NoDup_rev, seq_NoDup. } { intros i I. apply in_rev in I. apply in_seq in I. lia. }
  rewrite E1. cbn [bind]. rewrite rev_involutive, map_nth_seq in S1. set (SL := fun c => filter (fun p => chr p =? c) lms) in *.
  assert (HL : forall c p, In p (SL c) <-> lmsb str p = true /\ chr p = c). { intros c p. unfold SL. rewrite filter_In, (in_lms str maxv HV), Nat.eqb_eq. tauto. }
  assert (GS : good true SL). { intros c C. split; [apply NoDup_filter, nodup_lms|]. intros p P. apply HL in P. destruct P as [P1 P2]. apply (lmsb_spec str maxv HV) in P1. tauto. }
  destruct (left_any SL bs sa GS S1) as (bs2 & sa2 & L & E2 & S2 & K2 & GL). rewrite E2. cbn [bind].
  destruct (clear_any L SL bs2 sa2 poses GL GS) as (E3 & S3); auto. { intros c p _ P. apply HL in P. tauto. } { intros i I. apply K2, PP. rewrite <- in_rev. apply in_seq. lia. }
  rewrite E3. cbn [bind]. set (x := nth 0 sa2 None) in *.
  pose proof cnt2 as C2. pose proof (n2 str maxv HV) as N2. assert (X : x = nth 0 (row [] (SL 0) (cnt str 0)) None). { unfold x. rewrite (st_sa _ _ _ _ _ _ _ S2), pic_head by (try lia; apply (st_cap _ _ _ _ _ _ _ S2)). rewrite (L0_nil L GL). reflexivity. }
  assert (SC : length (SL 0) <= cnt str 0). { pose proof (st_cap _ _ _ _ _ _ _ S2 0 ltac:(lia)). lia. }
  assert (Xc : x = None \/ exists q, x = Some q /\ q < n - 1 /\ chr q = 0 /\ lmsb str q = true /\ forall p, p < n -> chr p = 0 -> lmsb str p = true).
  { destruct (Nat.eq_dec (length (SL 0)) (cnt str 0)) as [Q|Q].
    - right. assert (A : forall p, p < n -> chr p = 0 -> In p (SL 0)).
      { intros p P Z. assert (I : incl (filter (fun i => chr i =? 0) (seq 0 n)) (SL 0)).
        { apply NoDup_length_incl. - apply (GS 0). lia. - rewrite Q. unfold cnt. lia. - intros y Y. destruct (GS 0 ltac:(lia)) as [_ M]. destruct (M y Y) as (Y1 & Y2 & _). apply filter_In. split; [apply in_seq; lia|]. now apply Nat.eqb_eq. }
        apply I. apply filter_In. split; [apply in_seq; lia|]. now apply Nat.eqb_eq. }
      destruct HZ as (i & I & Z). pose proof (A i ltac:(lia) Z) as Ai. exists (nth 0 (SL 0) 0). rewrite X, row_nth3 by (cbn [length]; lia). rewrite Q, Nat.sub_diag. cbn [Nat.sub].
      assert (I0 : In (nth 0 (SL 0) 0) (SL 0)) by (apply nth_In; lia). apply HL in I0. destruct I0 as [I1 I2]. split; auto. split; [|split; auto; split; auto; intros p P Zp; pose proof (A p P Zp) as W; apply HL in W; tauto].
      destruct (In_nth _ _ 0 Ai) as (t & T1 & T2). assert (SS : StronglySorted lt (SL 0)) by (apply ss_filter, lms_increasing). destruct t as [|t]; [rewrite T2; exact I|]. pose proof (ss_nth _ _ (SL 0) 0 SS 0 (S t) ltac:(lia) T1). lia.
    - left. rewrite X. apply row_nth2; cbn [length]; lia. }
  destruct (right_any L (map bk_init_s bs2) x GL) as (bs4 & R & E4 & S4 & GR & IR); auto.
  { intros q Q. destruct Xc as [Xc|(q' & Xc & _ & _ & Q' & _)]; congruence. }
  rewrite E4. cbn [bind snd]. exists x, L, R. split; [reflexivity|]. split; auto. split; auto. split; auto. split; [apply (st_cap _ _ _ _ _ _ _ S4)|]. destruct Xc as [Xc|(q & A & B & C & _ & D)]; [left; auto|right; exists q; auto].
Qed.
End Zero.
