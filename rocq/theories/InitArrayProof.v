(** Proofs about InitArrayModel.v *)
From Coq Require Import List NArith ZArith Lia Bool Arith.
From Verif Require Import Base Spec3 Spec18 InitArrayModel.
Import ListNotations.
Local Open Scope nat_scope.

(** ** Folklore *)
Section Folklore.
Context {A : Type} (zero : A).
Definition chained (s : folklore A) (i : nat) : Prop :=
  exists f x, nth_error (fk_fv s) i = Some (f, x) /\ nth_error (fk_t s) f = Some i.
Definition fk_inv (n : nat) (s : folklore A) (val : nat -> A) : Prop :=
  length (fk_fv s) = n /\
  forall i, i < n -> exists f x, nth_error (fk_fv s) i = Some (f, x) /\
    (nth_error (fk_t s) f = Some i -> x = val i) /\ (nth_error (fk_t s) f <> Some i -> fk_init s = val i /\ ~ In i (fk_t s)).

Lemma fk_chained_spec : forall (s : folklore A) i f x, nth_error (fk_fv s) i = Some (f, x) ->
  fk_is_chained s i = Ok (match nth_error (fk_t s) f with Some j => j =? i | None => false end).
Proof.
  intros s i f x H. unfold fk_is_chained, lget. rewrite H. cbn [bind fst]. destruct (Nat.ltb_spec f (length (fk_t s))).
  - destruct (nth_error (fk_t s) f) eqn:E; [reflexivity|]. apply nth_error_None in E. lia.
  - destruct (nth_error (fk_t s) f) eqn:E; [|reflexivity]. assert (f < length (fk_t s)) by (apply nth_error_Some; congruence). lia.
Qed.

Lemma fk_get_inv : forall n (s : folklore A) val i, fk_inv n s val -> i < n -> fk_get s i = Ok (val i).
Proof.
  intros n s val i (L & H) Hi. destruct (H i Hi) as (f & x & E & H1 & H2). unfold fk_get. rewrite (fk_chained_spec _ _ _ _ E). cbn [bind].
  destruct (nth_error (fk_t s) f) as [j|] eqn:Ej.
  - destruct (Nat.eqb_spec j i).
    + unfold lget. rewrite E. cbn [bind snd]. rewrite H1; congruence.
    + destruct H2 as (-> & _); [congruence|reflexivity].
  - destruct H2 as (-> & _); [congruence|reflexivity].
Qed.

Lemma fk_set_inv : forall n (s : folklore A) val i v, fk_inv n s val -> i < n ->
  exists s' : folklore A, fk_set s i v = Ok s' /\ fk_inv n s' (fun j => if j =? i then v else val j).
Proof.
  intros n s val i v (L & H) Hi. destruct (H i Hi) as (f & x & E & H1 & H2). unfold fk_set. rewrite (fk_chained_spec _ _ _ _ E). cbn [bind].
  destruct (match nth_error (fk_t s) f with Some j => j =? i | None => false end) eqn:C.
  - cbn [bind]. unfold lget. rewrite E. cbn [bind fst]. rewrite lset_Ok by lia. cbn [bind]. eexists. split; [reflexivity|].
    split; cbn [fk_fv fk_t fk_init]; [now rewrite upd_length|]. intros j Hj. rewrite nth_error_upd.
    assert (Cf : nth_error (fk_t s) f = Some i) by (destruct (nth_error (fk_t s) f); [|discriminate]; apply Nat.eqb_eq in C; congruence).
    destruct (Nat.eqb_spec j i); cbn [andb].
    + subst j. destruct (Nat.ltb_spec i (length (fk_fv s))); [|lia]. exists f, v. repeat split; auto; congruence.
    + auto.
  - unfold lget. rewrite E. cbn [bind snd]. rewrite lset_Ok by lia. cbn [bind fk_fv fk_t fk_init]. rewrite nth_error_upd, Nat.eqb_refl.
    destruct (Nat.ltb_spec i (length (fk_fv s))); [|lia]. cbn [andb bind fst]. rewrite lset_Ok by (rewrite upd_length; lia). cbn [bind].
    eexists. split; [reflexivity|]. split; cbn [fk_fv fk_t fk_init]; [now rewrite !upd_length|].
    assert (Cf : nth_error (fk_t s) f <> Some i) by (intros X; rewrite X, Nat.eqb_refl in C; discriminate). destruct (H2 Cf) as (Hv & Hn).
    intros j Hj. rewrite !nth_error_upd, upd_length. destruct (Nat.eqb_spec j i); cbn [andb].
    + subst j. destruct (Nat.ltb_spec i (length (fk_fv s))); [|lia]. exists (length (fk_t s)), v. split; auto.
      rewrite nth_error_app2, Nat.sub_diag by lia. cbn [nth_error]. split; [auto|congruence].
    + destruct (H j Hj) as (g & y & Ej & J1 & J2). exists g, y. split; auto.
      destruct (Nat.lt_trichotomy g (length (fk_t s))) as [G|[G|G]].
      * rewrite nth_error_app1 by auto. split; auto. intros X. destruct (J2 X) as (J3 & J4). split; auto. rewrite in_app_iff. simpl. intuition.
      * subst g. rewrite nth_error_app2, Nat.sub_diag by lia. cbn [nth_error]. split; [intros X; exfalso; congruence|]. intros _.
        assert (X : nth_error (fk_t s) (length (fk_t s)) <> Some j) by (intros X; assert (length (fk_t s) < length (fk_t s)) by (apply nth_error_Some; congruence); lia).
        destruct (J2 X) as (J3 & J4). split; auto. rewrite in_app_iff. simpl. intuition.
      * assert (X : nth_error (fk_t s ++ [i]) g = None) by (apply nth_error_None; rewrite app_length; simpl; lia). rewrite X. split; [discriminate|].
        intros _. assert (Y : nth_error (fk_t s) g <> Some j) by (intros Y; assert (g < length (fk_t s)) by (apply nth_error_Some; congruence); lia).
        destruct (J2 Y) as (J3 & J4). split; auto. rewrite in_app_iff. simpl. intuition.
Qed.

Lemma fk_fill_inv : forall n (s : folklore A) val v, fk_inv n s val -> fk_inv n (fk_fill s v) (fun _ => v).
Proof.
  intros n s val v (L & H). split; [exact L|]. intros i Hi. destruct (H i Hi) as (f & x & E & _). exists f, x. split; [exact E|]. cbn [fk_fill fk_t fk_init].
  assert (X : nth_error (@nil nat) f = None) by (destruct f; reflexivity). rewrite X. split; [discriminate|]. split; auto.
Qed.

Lemma fk_make_inv : forall n v, fk_inv n (fk_make zero n v) (fun _ => v).
Proof.
  intros. split; cbn [fk_make fk_fv]; [apply repeat_length|]. intros i Hi. exists 0, zero. split.
  - rewrite (nth_error_nth' _ (0, zero)) by (rewrite repeat_length; auto). f_equal. now apply nth_repeat_lt.
  - cbn [fk_make fk_t fk_init nth_error]. split; [discriminate|]. split; auto.
Qed.

Lemma fk_inv_ext : forall n (s : folklore A) v v', (forall i, v i = v' i) -> fk_inv n s v -> fk_inv n s v'.
Proof.
  intros n s v v' X (L & H). split; auto. intros i Hi. destruct (H i Hi) as (f & x & E & A1 & A2). exists f, x. rewrite <- X. auto.
Qed.

Lemma fk_history : forall n v ops, Forall (ia_op_in n) ops ->
  exists s : folklore A, fk_run zero n v ops = Ok s /\ fk_inv n s (ia_last v (rev ops)).
Proof.
  intros n v ops F. unfold fk_run. induction ops using rev_ind.
  - exists (fk_make zero n v). split; [reflexivity|]. apply fk_make_inv.
  - apply Forall_app in F. destruct F as (F & Fx). apply Forall_inv in Fx. destruct (IHops F) as (s & E & I). rewrite foldM_app, E. cbn [bind foldM].
    rewrite rev_app_distr. cbn [rev app]. destruct x; cbn [fk_step ia_op_in] in *.
    + cbn [bind]. eexists. split; [reflexivity|]. apply (fk_inv_ext _ _ (fun _ => v0)); [reflexivity|]. eapply fk_fill_inv; eauto.
    + destruct (fk_set_inv n s _ i v0 I Fx) as (s' & E' & I'). rewrite E'. cbn [bind]. exists s'. split; auto.
Qed.

Lemma fk_history_get : forall n v ops, Forall (ia_op_in n) ops ->
  exists s : folklore A, fk_run zero n v ops = Ok s /\ fk_size s = n /\ forall i, i < n -> fk_get s i = Ok (ia_last v (rev ops) i).
Proof.
  intros n v ops F. destruct (fk_history n v ops F) as (s & E & I). exists s. split; auto. split; [apply I|]. intros. now apply fk_get_inv with (n := n).
Qed.

Lemma fk_of_list_gen : forall l k n (s : folklore A) val, fk_inv n s val -> k + length l <= n ->
  exists s' : folklore A, foldM (fun s p => fk_set s (fst p) (snd p)) (combine (seq k (length l)) l) s = Ok s' /\
    fk_inv n s' (fun j => if (k <=? j) && (j <? k + length l) then nth (j - k) l zero else val j).
Proof.
  induction l; intros k n s val I H; cbn [length seq combine foldM] in *.
  - exists s. split; auto. apply (fk_inv_ext _ _ val); auto. intros j. destruct (Nat.leb_spec k j), (Nat.ltb_spec j (k + 0)); simpl; auto; lia.
  - cbn [fst snd]. destruct (fk_set_inv n s val k a I) as (s1 & E1 & I1); [lia|]. rewrite E1. cbn [bind].
    destruct (IHl (S k) n s1 _ I1) as (s2 & E2 & I2); [lia|]. exists s2. split; auto. eapply fk_inv_ext; [|exact I2]. intros j. cbv beta.
    destruct (Nat.leb_spec (S k) j), (Nat.ltb_spec j (S k + length l)), (Nat.leb_spec k j), (Nat.ltb_spec j (k + S (length l))), (Nat.eqb_spec j k); cbn [andb]; auto; try lia.
    + replace (j - k) with (S (j - S k)) by lia. reflexivity.
    + subst. now rewrite Nat.sub_diag.
Qed.

Lemma fk_of_list_get : forall l, exists s : folklore A, fk_of_list zero l = Ok s /\ fk_size s = length l /\ forall i, i < length l -> fk_get s i = Ok (nth i l zero).
Proof.
  intros l. destruct (fk_of_list_gen l 0 (length l) _ _ (fk_make_inv (length l) zero) (le_n _)) as (s & E & I).
  exists s. split; auto. split; [apply I|]. intros i Hi. rewrite (fk_get_inv _ _ _ i I Hi). f_equal. destruct (Nat.leb_spec 0 i); [|lia].
  destruct (Nat.ltb_spec i (0 + length l)); [|lia]. cbn [andb]. now rewrite Nat.sub_0_r.
Qed.
End Folklore.

(** ** In place *)
Section InPlace.
Variables (w : N) (next : N -> res nat) (size : nat).
Notation n := (kActualSize size).
Hypothesis Hw : (N.of_nat n <= 2 ^ w)%N.
Definition next_ok := forall k, 2 * k < n -> next (N.of_nat (2 * k)) = Ok (2 * k + 1).
Definition nb := kNoneBlock size.

Lemma n_even : n = 2 * nb.
Proof.
  unfold nb, kNoneBlock, kActualSize. destruct (Nat.Even_or_Odd size) as [(k & ->)|(k & ->)].
  - replace ((2 * k) mod 2) with 0 by (symmetry; rewrite Nat.mul_comm; apply Nat.mod_mul; lia).
    replace (2 * k + 0) with (k * 2) by lia. rewrite Nat.div_mul by lia. lia.
  - replace ((2 * k + 1) mod 2) with 1 by (symmetry; rewrite Nat.add_comm, Nat.mul_comm, Nat.mod_add by lia; reflexivity).
    replace (2 * k + 1 + 1) with ((k + 1) * 2) by lia. rewrite Nat.div_mul by lia. lia.
Qed.

(** The memory seen as two functions: even cells (links) and odd cells *)
Definition st (s : inplace) (v : N) (B : nat) (R O : nat -> N) : Prop :=
  length (ia_a s) = n /\ ia_init s = v /\ ia_b s = B /\ forall b, b < nb -> nth (2 * b) (ia_a s) 0%N = R b /\ nth (2 * b + 1) (ia_a s) 0%N = O b.
Definition fu (R : nat -> N) (x : nat) (v : N) : nat -> N := fun b => if b =? x then v else R b.
Definition Cr (R : nat -> N) (B b k : nat) : Prop :=
  N.to_nat (R b) = 2 * k /\ N.to_nat (R k) = 2 * b /\ k < nb /\ ((b < B /\ B <= k) \/ (k < B /\ B <= b)).

Lemma Cr_sym : forall R B b k, b < nb -> Cr R B b k -> Cr R B k b.
Proof. unfold Cr. intros. lia. Qed.
Lemma Cr_fun : forall R B b k k', Cr R B b k -> Cr R B b k' -> k = k'.
Proof. unfold Cr. intros. lia. Qed.

Lemma fu_same : forall R x v, fu R x v x = v.
Proof. intros. unfold fu. now rewrite Nat.eqb_refl. Qed.
Lemma fu_other : forall R x v b, b <> x -> fu R x v b = R b.
Proof. intros. unfold fu. destruct (Nat.eqb_spec b x); congruence. Qed.

Lemma st_get_even : forall s v B R O b, st s v B R O -> b < nb -> ia_to s (2 * b) = Ok (R b).
Proof.
  intros s v B R O b (L & _ & _ & H) Hb. unfold ia_to. rewrite (lget_nth _ _ _ 0%N) by (pose proof n_even; lia). destruct (H b Hb) as (-> & _). reflexivity.
Qed.
Lemma st_get_odd : forall s v B R O b, st s v B R O -> b < nb -> ia_to s (2 * b + 1) = Ok (O b).
Proof.
  intros s v B R O b (L & _ & _ & H) Hb. unfold ia_to. rewrite (lget_nth _ _ _ 0%N) by (pose proof n_even; lia). destruct (H b Hb) as (_ & ->). reflexivity.
Qed.
Lemma st_put_even : forall s v B R O b x, st s v B R O -> b < nb -> exists s', ia_put s (2 * b) x = Ok s' /\ st s' v B (fu R b x) O.
Proof.
  intros s v B R O b x (L & I & J & H) Hb. unfold ia_put. pose proof n_even. rewrite lset_Ok by lia. cbn [bind]. eexists. split; [reflexivity|].
  split; [cbn [ia_a]; now rewrite upd_length|]. split; [exact I|]. split; [exact J|]. cbn [ia_a]. intros c Hc. destruct (H c Hc) as (H1 & H2).
  rewrite !nth_upd. unfold fu. destruct (Nat.ltb_spec (2 * b) (length (ia_a s))); [|lia]. rewrite !andb_true_r.
  destruct (Nat.eqb_spec (2 * c) (2 * b)), (Nat.eqb_spec (2 * c + 1) (2 * b)), (Nat.eqb_spec c b); try lia; auto.
Qed.
Lemma st_put_odd : forall s v B R O b x, st s v B R O -> b < nb -> exists s', ia_put s (2 * b + 1) x = Ok s' /\ st s' v B R (fu O b x).
Proof.
  intros s v B R O b x (L & I & J & H) Hb. unfold ia_put. pose proof n_even. rewrite lset_Ok by lia. cbn [bind]. eexists. split; [reflexivity|].
  split; [cbn [ia_a]; now rewrite upd_length|]. split; [exact I|]. split; [exact J|]. cbn [ia_a]. intros c Hc. destruct (H c Hc) as (H1 & H2).
  rewrite !nth_upd. unfold fu. destruct (Nat.ltb_spec (2 * b + 1) (length (ia_a s))); [|lia]. rewrite !andb_true_r.
  destruct (Nat.eqb_spec (2 * c) (2 * b + 1)), (Nat.eqb_spec (2 * c + 1) (2 * b + 1)), (Nat.eqb_spec c b); try lia; auto.
Qed.
Lemma st_set_to : forall s v B R O b k, st s v B R O -> b < nb -> k < nb -> exists s', ia_set_to w s (2 * b) (2 * k) = Ok s' /\ st s' v B (fu R b (N.of_nat (2 * k))) O.
Proof.
  intros s v B R O b k H Hb Hk. unfold ia_set_to, wrap. rewrite N.mod_small by (pose proof n_even; lia). now apply st_put_even.
Qed.

Lemma st_chained : forall s v B R O b, st s v B R O -> b < nb ->
  exists o, ia_chained_to size s b = Ok o /\ match o with Some k => Cr R B b k | None => forall k, ~ Cr R B b k end.
Proof.
  intros s v B R O b H Hb. unfold ia_chained_to. rewrite (st_get_even s v B R O b H Hb). cbn [bind]. pose proof n_even as En.
  destruct (N.ltb_spec (R b) (N.of_nat n)) as [Hn|Hn]; cbn [andb].
  2: { eexists. split; [reflexivity|]. intros k (A1 & A2 & A3 & A4). lia. }
  destruct (N.eqb_spec (R b mod 2) 0) as [He|He]; cbn [andb].
  2: { eexists. split; [reflexivity|]. intros k (A1 & A2 & A3 & A4). apply He. replace (R b) with (N.of_nat k * 2)%N by lia. apply N.mod_mul. lia. }
  assert (E2 : exists k, R b = N.of_nat (2 * k)).
  { exists (N.to_nat (R b / 2)). rewrite (N.div_mod (R b) 2) at 1 by lia. rewrite He. lia. }
  destruct E2 as (k & E2). rewrite E2. rewrite Nat2N.id. rewrite (st_get_even s v B R O k H) by lia. cbn [bind].
  replace (2 * k / 2) with k by (rewrite Nat.mul_comm, Nat.div_mul by lia; reflexivity).
  assert (Eb : ia_b s = B) by apply H. rewrite Eb. cbv zeta.
  destruct (N.eqb_spec (R k) (N.of_nat (2 * b))) as [E3|E3]; cbn [andb].
  2: { eexists. split; [reflexivity|]. intros k' (A1 & A2 & A3 & A4). assert (k' = k) by lia. subst. lia. }
  destruct (((b <? B) && (B <=? k)) || ((k <? B) && (B <=? b))) eqn:Es.
  - eexists. split; [reflexivity|]. cbv iota. apply orb_true_iff in Es. rewrite !andb_true_iff, !Nat.ltb_lt, !Nat.leb_le in Es.
    split; [lia|]. split; [lia|]. split; [lia|]. exact Es.
  - eexists. split; [reflexivity|]. intros k' (A1 & A2 & A3 & A4). assert (k' = k) by lia. subst.
    apply orb_false_iff in Es. rewrite !andb_false_iff, !Nat.ltb_ge, !Nat.leb_gt in Es. lia.
Qed.

(** Writing the link cell of a block of the first area and breaking the chain this may have imitated *)
Lemma break_spec : forall s v B R O x, st s v B R O -> x < nb -> x < B ->
  exists s' R', ia_break_chain w size s x = Ok s' /\ st s' v B R' O /\
    (forall b, b < B -> b < nb -> R' b = R b) /\ (forall k, ~ Cr R' B x k) /\
    (forall b k, b <> x -> k <> x -> b < nb -> (Cr R' B b k <-> Cr R B b k)).
Proof.
  intros s v B R O x H Hx HB. unfold ia_break_chain. destruct (st_chained s v B R O x H Hx) as (o & E & Ho). rewrite E. cbn [bind].
  destruct o as [y|].
  - destruct Ho as (H1 & H2 & H3 & H4). destruct (st_set_to s v B R O y y H H3 H3) as (s' & E' & S'). exists s', (fu R y (N.of_nat (2 * y))).
    split; [exact E'|]. split; [exact S'|]. split; [intros; apply fu_other; lia|]. split.
    + intros k (A1 & A2 & A3 & A4). rewrite fu_other in A1 by lia. assert (k = y) by lia. subst k. rewrite fu_same in A2. lia.
    + intros b k Nb Nk Lb. unfold Cr. destruct (Nat.eq_dec b y) as [->|Nby].
      * rewrite fu_same. lia.
      * rewrite (fu_other _ _ _ b) by auto. destruct (Nat.eq_dec k y) as [->|Nky]; [rewrite fu_same; lia|]. rewrite fu_other by auto. tauto.
  - exists s, R. split; [reflexivity|]. split; auto. split; auto. split; [exact Ho|]. tauto.
Qed.

Lemma write_break : forall s v B R O x, st s v B R O -> x < nb -> x < B -> forall R0 y, (forall b, R b = fu R0 x y b) ->
  exists s' R', ia_break_chain w size s x = Ok s' /\ st s' v B R' O /\
    R' x = y /\ (forall b, b < B -> b < nb -> b <> x -> R' b = R0 b) /\ (forall k, ~ Cr R' B x k) /\
    (forall b k, b <> x -> k <> x -> b < nb -> (Cr R' B b k <-> Cr R0 B b k)).
Proof.
  intros s v B R O x H Hx HB R0 y E0. destruct (break_spec s v B R O x H Hx HB) as (s' & R' & E & S' & A1 & A2 & A3).
  exists s', R'. split; auto. split; auto. split; [rewrite A1, E0 by auto; apply fu_same|]. split; [intros; rewrite A1, E0 by auto; now apply fu_other|].
  split; auto. intros b k Nb Nk Lb. rewrite (A3 b k) by auto. unfold Cr. rewrite !E0. rewrite !fu_other by auto. tauto.
Qed.

(** The two values of a block and whether it has been written since the last fill *)
Definition Bv (v : N) (B : nat) (R O : nat -> N) (b : nat) (p : N * N * bool) : Prop :=
  (forall k, Cr R B b k -> p = if b <? B then (v, v, false) else (O k, O b, true)) /\
  ((forall k, ~ Cr R B b k) -> p = if b <? B then (R b, O b, true) else (v, v, false)).

Lemma Bv_dec : forall s v B R O b, st s v B R O -> b < nb -> (exists k, Cr R B b k) \/ (forall k, ~ Cr R B b k).
Proof. intros s v B R O b H Hb. destruct (st_chained s v B R O b H Hb) as (o & _ & Ho). destruct o; eauto. Qed.

Lemma extend_spec : forall s v B R O, st s v B R O -> B < nb ->
  exists s' k R' O', ia_extend w size s = Ok (s', k) /\ st s' v (S B) R' O' /\
    k < S B /\ k < nb /\ (forall x, ~ Cr R' (S B) k x) /\ R' k = v /\ O' k = v /\
    (forall b p, b < nb -> b <> k -> Bv v B R O b p -> Bv v (S B) R' O' b p) /\ (forall p, Bv v B R O k p -> p = (v, v, false)) /\
    (forall u x, u < B -> x <> B -> u < nb -> Cr R B u x -> Cr R' (S B) u x) /\
    (forall b, B < b -> b < nb -> (forall x, ~ Cr R B b x) -> forall x, ~ Cr R' (S B) b x) /\
    ((k = B /\ forall x, ~ Cr R B B x) \/ Cr R B B k).
Proof.
  intros s v B R O H HB. unfold ia_extend. assert (Eb : ia_b s = B) by apply H. assert (Ev : ia_init s = v) by apply H. rewrite Eb.
  destruct (st_chained s v B R O B H HB) as (o & E & Ho). rewrite E. cbn [bind]. cbv zeta.
  assert (S1 : st (IA (ia_init s) (S B) (ia_a s)) v (S B) R O).
  { destruct H as (H1 & H2 & H3 & H4). split; [exact H1|]. split; [exact H2|]. split; [reflexivity|exact H4]. }
  cbn [ia_b]. replace (S B - 1) with B by lia. set (s1 := IA (ia_init s) (S B) (ia_a s)) in *. clearbody s1.
  assert (CS : forall b k, b <> B -> k <> B -> (Cr R (S B) b k <-> Cr R B b k)) by (unfold Cr; intros; lia).
  destruct o as [k|].
  - destruct Ho as (C1 & C2 & C3 & C4). assert (kB : k < B) by lia.
    rewrite (st_get_odd s1 v (S B) R O k S1 C3). cbn [bind].
    destruct (st_put_even s1 v (S B) R O B (O k) S1 HB) as (s2 & E2 & S2). rewrite E2. cbn [bind].
    assert (Eb2 : ia_b s2 = S B) by apply S2. rewrite ?Eb2. replace (S B - 1) with B by lia.
    destruct (write_break s2 v (S B) _ O B S2 HB (Nat.lt_succ_diag_r B) R (O k)) as (s3 & R3 & E3 & S3 & A1 & A2 & A3 & A4); [reflexivity|].
    rewrite E3. cbn [bind fst snd]. unfold ia_init_block. assert (Ev3 : ia_init s3 = v) by apply S3. rewrite Ev3.
    destruct (st_put_odd s3 v (S B) R3 O k v S3 C3) as (s4 & E4 & S4). rewrite E4. cbn [bind]. assert (Ev4 : ia_init s4 = v) by apply S4. rewrite Ev4.
    destruct (st_put_even s4 v (S B) R3 _ k v S4 C3) as (s5 & E5 & S5). rewrite E5. cbn [bind].
    destruct (write_break s5 v (S B) _ _ k S5 C3 ltac:(lia) R3 v) as (s6 & R6 & E6 & S6 & D1 & D2 & D3 & D4); [reflexivity|].
    rewrite E6. cbn [bind]. exists s6, k, R6, (fu O k v). split; [reflexivity|]. split; [exact S6|]. split; [lia|]. split; [lia|]. split; [exact D3|].
    split; [exact D1|]. split; [apply fu_same|].
    assert (UB' : forall x, ~ Cr R6 (S B) B x).
    { intros x Hx. destruct (Nat.eq_dec x k) as [->|]; [apply (D3 B); apply Cr_sym; auto; lia|]. apply D4 in Hx; auto; [|lia]. now apply A3 in Hx. }
    assert (CC : forall b x, b <> B -> b <> k -> x <> B -> x <> k -> b < nb -> (Cr R6 (S B) b x <-> Cr R B b x)).
    { intros b x N1 N2 N3 N4 Lb. rewrite D4 by auto. rewrite A4 by auto. now apply CS. }
    assert (CkB : forall b x, b < nb -> b <> B -> b <> k -> Cr R B b x -> x <> B /\ x <> k).
    { intros b x Lb N1 N2 Hx. unfold Cr in *. split; intros ->; lia. }
    assert (CkB' : forall b x, b < nb -> b <> B -> b <> k -> Cr R6 (S B) b x -> x <> B /\ x <> k).
    { intros b x Lb N1 N2 Hx. split; intros ->; [apply (UB' b)|apply (D3 b)]; apply Cr_sym; auto. }
    split; [|split; [|split; [|split]]].
    + intros b p Lb Nk (P1 & P2). destruct (Nat.eq_dec b B) as [->|NB].
      * split; [intros x Hx; now apply UB' in Hx|]. intros _. destruct (Nat.ltb_spec B (S B)); [|lia].
        rewrite (P1 k) by (repeat split; auto). destruct (Nat.ltb_spec B B); [lia|]. rewrite fu_other by lia. f_equal.
        rewrite D2 by (auto; lia). now rewrite A1.
      * assert (EL : (b <? S B) = (b <? B)) by (destruct (Nat.ltb_spec b (S B)), (Nat.ltb_spec b B); auto; lia). split; rewrite EL.
        -- intros x Hx. destruct (CkB' b x Lb NB Nk Hx) as (X1 & X2). apply CC in Hx; auto. rewrite (P1 x Hx). rewrite !fu_other by auto. reflexivity.
        -- intros Hx. rewrite fu_other by auto. assert (R6b : b < B -> R6 b = R b) by (intros; rewrite D2, A2 by (auto; lia); auto).
           rewrite P2. { destruct (Nat.ltb_spec b B); auto. now rewrite R6b. }
           intros x Hx'. destruct (CkB b x Lb NB Nk Hx'). apply (Hx x). now apply CC.
    + intros p (P1 & P2). rewrite (P1 B). { destruct (Nat.ltb_spec k B); [reflexivity|lia]. } apply Cr_sym; auto. repeat split; auto.
    + intros u x Hu Nx Lu Hc. apply CC; auto; try lia; unfold Cr in Hc; [intros ->; lia|intros ->; lia].
    + intros b Hb Lb Hn x Hx. assert (b <> B) by lia. assert (b <> k) by lia. destruct (CkB' b x Lb H0 H1 Hx). apply CC in Hx; auto. now apply (Hn x).
    + right. repeat split; auto.
  - cbn [bind fst snd]. unfold ia_init_block. assert (Ev3 : ia_init s1 = v) by apply S1. rewrite Ev3.
    destruct (st_put_odd s1 v (S B) R O B v S1 HB) as (s4 & E4 & S4). rewrite E4. cbn [bind]. assert (Ev4 : ia_init s4 = v) by apply S4. rewrite Ev4.
    destruct (st_put_even s4 v (S B) R _ B v S4 HB) as (s5 & E5 & S5). rewrite E5. cbn [bind].
    destruct (write_break s5 v (S B) _ _ B S5 HB ltac:(lia) R v) as (s6 & R6 & E6 & S6 & D1 & D2 & D3 & D4); [reflexivity|].
    rewrite E6. cbn [bind]. exists s6, B, R6, (fu O B v). split; [reflexivity|]. split; [exact S6|]. split; [lia|]. split; [lia|]. split; [exact D3|].
    split; [exact D1|]. split; [apply fu_same|].
    assert (CC : forall b x, b <> B -> x <> B -> b < nb -> (Cr R6 (S B) b x <-> Cr R B b x)).
    { intros b x N1 N2 Lb. rewrite D4 by auto. now apply CS. }
    assert (CB : forall b x, b < nb -> Cr R B b x -> x <> B) by (intros b x Lb Hx ->; apply (Ho b); now apply Cr_sym).
    assert (CB' : forall b x, b < nb -> Cr R6 (S B) b x -> x <> B) by (intros b x Lb Hx ->; apply (D3 b); now apply Cr_sym).
    split; [|split; [|split; [|split]]].
    + intros b p Lb NB (P1 & P2).
      * assert (EL : (b <? S B) = (b <? B)) by (destruct (Nat.ltb_spec b (S B)), (Nat.ltb_spec b B); auto; lia). split; rewrite EL.
        -- intros x Hx. assert (x <> B) by (now apply (CB' b)). apply CC in Hx; auto. rewrite (P1 x Hx). rewrite !fu_other by auto. reflexivity.
        -- intros Hx. rewrite fu_other by auto. assert (R6b : b < B -> R6 b = R b) by (intros; rewrite D2 by (auto; lia); auto).
           rewrite P2. { destruct (Nat.ltb_spec b B); auto. now rewrite R6b. }
           intros x Hx'. assert (x <> B) by (now apply (CB b)). apply (Hx x). now apply CC.
    + intros p (P1 & P2). rewrite (P2 Ho). destruct (Nat.ltb_spec B B); [lia|reflexivity].
    + intros u x Hu Nx Lu Hc. apply CC; auto; lia.
    + intros b Hb Lb Hn x Hx. assert (x <> B) by (now apply (CB' b)). apply CC in Hx; auto; [now apply (Hn x)|lia].
    + left. auto.
Qed.

Definition pick (i : nat) (p : N * N * bool) : N := if i mod 2 =? 0 then fst (fst p) else snd (fst p).
Definition edit (i : nat) (v : N) (p : N * N * bool) : N * N * bool := (if i mod 2 =? 0 then (v, snd (fst p)) else (fst (fst p), v), true).

Lemma halves : forall i, i = 2 * (i / 2) /\ i mod 2 = 0 \/ i = 2 * (i / 2) + 1 /\ i mod 2 = 1.
Proof. intros i. pose proof (Nat.div_mod i 2 ltac:(lia)). pose proof (Nat.mod_upper_bound i 2 ltac:(lia)). lia. Qed.

Lemma ia_get_spec : forall s v B R O i p, next_ok \/ i mod 2 = 1 -> st s v B R O -> i < n -> Bv v B R O (i / 2) p -> ia_get next size s i = Ok (pick i p).
Proof.
  intros s v B R O i p Hnext H Hi (P1 & P2). assert (Hb : i / 2 < nb) by (apply Nat.div_lt_upper_bound; [lia|]; rewrite <- n_even; auto).
  unfold ia_get. destruct (st_chained s v B R O (i / 2) H Hb) as (o & E & Ho). rewrite E. cbn [bind]. assert (Eb : ia_b s = B) by apply H.
  assert (Ev : ia_init s = v) by apply H. rewrite Eb, Ev. unfold pick.
  assert (Get : ia_to s i = Ok (if i mod 2 =? 0 then R (i / 2) else O (i / 2))).
  { destruct (halves i) as [(X & ->)|(X & ->)]; cbn [Nat.eqb]; rewrite X at 1; [eapply st_get_even|eapply st_get_odd]; eauto. }
  assert (EL : (i <? 2 * B) = (i / 2 <? B)).
  { destruct (Nat.ltb_spec i (2 * B)), (Nat.ltb_spec (i / 2) B); auto; destruct (halves i); lia. }
  rewrite EL. destruct o as [k|].
  - rewrite (P1 k Ho). destruct (Nat.ltb_spec (i / 2) B).
    + cbn [fst snd]. now destruct (i mod 2 =? 0).
    + cbn [fst snd]. destruct (i mod 2 =? 0) eqn:E0; rewrite Get; [|reflexivity]. cbn [bind].
      destruct Hnext as [Hnext|Hnext]; [|rewrite Hnext in E0; discriminate].
      destruct Ho as (C1 & C2 & C3 & C4). replace (R (i / 2)) with (N.of_nat (2 * k)) by lia. rewrite Hnext by (pose proof n_even; lia). cbn [bind].
      eapply st_get_odd; eauto.
  - rewrite (P2 Ho). destruct (Nat.ltb_spec (i / 2) B).
    + cbn [fst snd]. rewrite Get. now destruct (i mod 2 =? 0).
    + cbn [fst snd]. now destruct (i mod 2 =? 0).
Qed.

(** write_uca on a block of the first area, whose cells [R, O] were written before *)
Lemma write_uca_spec : forall s v B R O i val, st s v B R O -> i < n -> i / 2 < B ->
  exists s' R' O', ia_write_uca w size s i val = Ok s' /\ st s' v B R' O' /\
    (forall k, ~ Cr R' B (i / 2) k) /\ (R' (i / 2), O' (i / 2), true) = edit i val (R (i / 2), O (i / 2), true) /\
    (forall b, b < B -> b < nb -> b <> i / 2 -> R' b = R b) /\ (forall b, b <> i / 2 -> O' b = O b) /\
    (forall b k, b <> i / 2 -> k <> i / 2 -> b < nb -> (Cr R' B b k <-> Cr R B b k)).
Proof.
  intros s v B R O i val H Hi HB. assert (Hb : i / 2 < nb) by (apply Nat.div_lt_upper_bound; [lia|]; rewrite <- n_even; auto).
  unfold ia_write_uca, edit. destruct (halves i) as [(X & Y)|(X & Y)]; rewrite Y; cbn [Nat.eqb].
  - destruct (st_put_even s v B R O (i / 2) val H Hb) as (s1 & E1 & S1). rewrite <- X in E1. rewrite E1. cbn [bind].
    destruct (write_break s1 v B _ O (i / 2) S1 Hb HB R val) as (s2 & R2 & E2 & S2 & A1 & A2 & A3 & A4); [reflexivity|].
    exists s2, R2, O. split; auto. split; auto. split; auto. split; [cbn [fst snd]; congruence|]. auto.
  - destruct (st_put_odd s v B R O (i / 2) val H Hb) as (s1 & E1 & S1). rewrite <- X in E1. rewrite E1. cbn [bind].
    destruct (write_break s1 v B R _ (i / 2) S1 Hb HB R (R (i / 2))) as (s2 & R2 & E2 & S2 & A1 & A2 & A3 & A4).
    { intros b. unfold fu. destruct (Nat.eqb_spec b (i / 2)); congruence. }
    exists s2, R2, (fu O (i / 2) val). split; auto. split; auto. split; auto. split; [cbn [fst snd]; rewrite fu_same; congruence|]. split; auto.
    split; auto. intros. now apply fu_other.
Qed.

(** Effect of a set on the values of all blocks *)
Definition set_effect (v : N) (B : nat) (R O : nat -> N) (B' : nat) (R' O' : nat -> N) (i : nat) (val : N) : Prop :=
  forall b p, b < nb -> Bv v B R O b p -> Bv v B' R' O' b (if b =? i / 2 then edit i val p else p).

Lemma uca_effect : forall v B R O R' O' i val, i < n -> i / 2 < B -> (forall k, ~ Cr R B (i / 2) k) ->
  (forall k, ~ Cr R' B (i / 2) k) -> (R' (i / 2), O' (i / 2), true) = edit i val (R (i / 2), O (i / 2), true) ->
  (forall b, b < B -> b < nb -> b <> i / 2 -> R' b = R b) -> (forall b, b <> i / 2 -> O' b = O b) ->
  (forall b k, b <> i / 2 -> k <> i / 2 -> b < nb -> (Cr R' B b k <-> Cr R B b k)) ->
  set_effect v B R O B R' O' i val.
Proof.
  intros v B R O R' O' i val Hi HB U0 U1 E A1 A2 A3 b p Lb (P1 & P2).
  assert (Hb : i / 2 < nb) by (apply Nat.div_lt_upper_bound; [lia|]; rewrite <- n_even; auto).
  destruct (Nat.eqb_spec b (i / 2)) as [->|Nb].
  - split; [intros k Hk; now apply U1 in Hk|]. intros _. rewrite (P2 U0). destruct (Nat.ltb_spec (i / 2) B); [|lia]. now rewrite E.
  - assert (K : forall k, Cr R B b k -> k <> i / 2) by (intros k Hk ->; apply (U0 b); now apply Cr_sym).
    assert (K' : forall k, Cr R' B b k -> k <> i / 2) by (intros k Hk ->; apply (U1 b); now apply Cr_sym).
    split.
    + intros k Hk. assert (k <> i / 2) by auto. apply A3 in Hk; auto. rewrite (P1 k Hk), !A2 by auto. reflexivity.
    + intros Hn. rewrite P2. { destruct (Nat.ltb_spec b B); auto. now rewrite A1, A2. } intros k Hk. apply (Hn k). apply A3; auto.
Qed.

Lemma set_effect_trans : forall v B R O B1 R1 O1 B2 R2 O2 i val, (forall b p, b < nb -> b <> i / 2 -> Bv v B R O b p -> Bv v B1 R1 O1 b p) ->
  (forall p, Bv v B R O (i / 2) p -> p = (v, v, false)) -> Bv v B1 R1 O1 (i / 2) (v, v, true) ->
  set_effect v B1 R1 O1 B2 R2 O2 i val -> set_effect v B R O B2 R2 O2 i val.
Proof.
  intros v B R O B1 R1 O1 B2 R2 O2 i val A1 A2 A3 A4 b p Lb H. destruct (Nat.eqb_spec b (i / 2)) as [->|Nb].
  - specialize (A4 _ _ Lb A3). rewrite Nat.eqb_refl in A4. rewrite (A2 p H). exact A4.
  - specialize (A4 b p Lb (A1 b p Lb Nb H)). destruct (Nat.eqb_spec b (i / 2)); [contradiction|exact A4].
Qed.

Lemma ia_set_spec : forall s v B R O i val, st s v B R O -> i < n ->
  exists s' B' R' O', ia_set w size s i val = Ok s' /\ st s' v B' R' O' /\ set_effect v B R O B' R' O' i val /\ (forall p, Bv v B R O (i / 2) p -> B' = if snd p then B else S B).
Proof.
  intros s v B R O i val H Hi. assert (Hb : i / 2 < nb) by (apply Nat.div_lt_upper_bound; [lia|]; rewrite <- n_even; auto).
  unfold ia_set. destruct (st_chained s v B R O (i / 2) H Hb) as (o & E & Ho). rewrite E. cbn [bind]. assert (Eb : ia_b s = B) by apply H. rewrite Eb.
  destruct (Nat.ltb_spec (i / 2) B) as [HB|HB].
  - destruct o as [k|].
    + pose proof Ho as (C1 & C2 & C3 & C4).
      assert (WB : forall p, Bv v B R O (i / 2) p -> S B = if snd p then B else S B).
      { intros p (P1 & _). rewrite (P1 k Ho). destruct (Nat.ltb_spec (i / 2) B); [reflexivity|lia]. }
      destruct (extend_spec s v B R O H ltac:(lia)) as (s1 & j & R1 & O1 & E1 & S1 & Lj & Lj' & Uj & Rj & Oj & EV & EVk & EU & EW & EC).
      rewrite E1. cbn [bind]. cbv iota. destruct (Nat.eqb_spec (i / 2) j) as [Ej|Nj].
      * destruct (write_uca_spec s1 v (S B) R1 O1 i val S1 Hi ltac:(lia)) as (s2 & R2 & O2 & E2 & S2 & A1 & A2 & A3 & A4 & A5).
        assert (EX : Bv v (S B) R1 O1 (i / 2) (v, v, true)). { rewrite Ej. split; [intros x Hx; now apply Uj in Hx|]. intros _. destruct (Nat.ltb_spec j (S B)); [|lia]. now rewrite Rj, Oj. }
        exists s2, (S B), R2, O2. split; auto. split; auto. split; [|exact WB]. eapply set_effect_trans; [rewrite Ej; exact EV|rewrite Ej; exact EVk|exact EX|]. apply uca_effect; auto. now rewrite Ej.
      * assert (kB : k <> B).
        { intros ->. apply Cr_sym in Ho; auto. destruct EC as [(-> & EC)|EC]; [now apply (EC (i / 2))|]. apply Nj. now apply (Cr_fun R B B). }
        assert (Cb : Cr R1 (S B) (i / 2) k) by (apply EU; auto).
        rewrite (st_get_even s1 v (S B) R1 O1 (i / 2) S1 Hb). cbn [bind].
        destruct (st_put_even s1 v (S B) R1 O1 j (R1 (i / 2)) S1 Lj') as (s2 & E2 & S2). rewrite E2. cbn [bind].
        rewrite (st_get_odd s2 v (S B) _ O1 (i / 2) S2 Hb). cbn [bind].
        destruct (st_put_odd s2 v (S B) _ O1 j (O1 (i / 2)) S2 Lj') as (s3 & E3 & S3). rewrite E3. cbn [bind].
        unfold ia_make_chain. destruct (st_set_to s3 v (S B) _ _ j k S3 Lj' C3) as (s4 & E4 & S4). rewrite E4. cbn [bind].
        destruct (st_set_to s4 v (S B) _ _ k j S4 C3 Lj') as (s5 & E5 & S5). rewrite E5. cbn [bind].
        unfold ia_init_block. assert (Ev5 : ia_init s5 = v) by apply S5. rewrite Ev5.
        destruct (st_put_odd s5 v (S B) _ _ (i / 2) v S5 Hb) as (s6 & E6 & S6). rewrite E6. cbn [bind]. assert (Ev6 : ia_init s6 = v) by apply S6. rewrite Ev6.
        destruct (st_put_even s6 v (S B) _ _ (i / 2) v S6 Hb) as (s7 & E7 & S7). rewrite E7. cbn [bind].
        set (RM := fu (fu (fu (fu R1 j (R1 (i / 2))) j (N.of_nat (2 * k))) k (N.of_nat (2 * j))) (i / 2) v) in *.
        set (OM := fu (fu O1 j (O1 (i / 2))) (i / 2) v) in *.
        destruct (write_uca_spec s7 v (S B) RM OM i val S7 Hi ltac:(lia)) as (s8 & R8 & O8 & E8 & S8 & A1 & A2 & A3 & A4 & A5).
        exists s8, (S B), R8, O8. split; auto. split; auto. split; [|exact WB].
        assert (jk : j <> k) by lia. assert (bk : i / 2 <> k) by lia.
        assert (RMj : RM j = N.of_nat (2 * k)) by (unfold RM; rewrite fu_other, fu_other by lia; apply fu_same).
        assert (RMk : RM k = N.of_nat (2 * j)) by (unfold RM; rewrite fu_other by lia; apply fu_same).
        assert (RMo : forall b, b <> j -> b <> k -> b <> i / 2 -> RM b = R1 b) by (intros; unfold RM; rewrite !fu_other by auto; reflexivity).
        assert (Cjk : Cr R8 (S B) j k).
        { apply A5; auto. repeat split; try lia. }
        assert (RMb : RM (i / 2) = v) by (unfold RM; apply fu_same).
        assert (OMb : OM (i / 2) = v) by (unfold OM; apply fu_same).
        (* chains of the other blocks *)
        assert (Oth : forall b x, b < nb -> b <> i / 2 -> b <> j -> b <> k -> (Cr R8 (S B) b x <-> Cr R1 (S B) b x)).
        { intros b x Lb N1 N2 N3. split; intros Hx.
          - assert (Ni : x <> i / 2) by (intros ->; apply (A1 b); now apply Cr_sym).
            assert (Nxj : x <> j) by (intros ->; apply N3; apply Cr_sym in Hx; auto; now apply (Cr_fun R8 (S B) j)).
            assert (Nxk : x <> k) by (intros ->; apply N2; apply Cr_sym in Hx; auto; apply Cr_sym in Cjk; auto; now apply (Cr_fun R8 (S B) k)).
            apply A5 in Hx; auto. unfold Cr in *. rewrite !RMo in Hx by auto. exact Hx.
          - assert (Nxj : x <> j) by (intros ->; apply (Uj b); now apply Cr_sym).
            assert (Nxk : x <> k) by (intros ->; apply N1; apply Cr_sym in Hx; auto; apply Cr_sym in Cb; auto; now apply (Cr_fun R1 (S B) k)).
            assert (Ni : x <> i / 2) by (intros ->; apply N3; apply Cr_sym in Hx; auto; now apply (Cr_fun R1 (S B) (i / 2))).
            apply A5; auto. unfold Cr in *. rewrite !RMo by auto. exact Hx. }
        intros b p Lb P0. destruct (Nat.eq_dec b j) as [->|Nbj].
        { rewrite (EVk p P0). destruct (Nat.eqb_spec j (i / 2)) as [X|_]; [congruence|]. split; [|intros Hn; now apply Hn in Cjk]. intros x Hx. destruct (Nat.ltb_spec j (S B)); [reflexivity|lia]. }
        destruct (EV b p Lb Nbj P0) as (P1 & P2). destruct (Nat.eqb_spec b (i / 2)) as [->|Nb].
        { split; [intros x Hx; now apply A1 in Hx|]. intros _. destruct (Nat.ltb_spec (i / 2) (S B)); [|lia]. rewrite A2, RMb, OMb.
          rewrite (P1 k Cb). destruct (Nat.ltb_spec (i / 2) (S B)); [reflexivity|lia]. }
        destruct (Nat.eq_dec b k) as [->|Nbk].
        { rewrite (P1 (i / 2)) by (now apply Cr_sym). destruct (Nat.ltb_spec k (S B)) as [|Q]; [lia|].
          split; [|intros Hn; apply Cr_sym in Cjk; auto; now apply Hn in Cjk].
          intros x Hx. apply Cr_sym in Cjk; auto. rewrite (Cr_fun _ _ _ _ _ Hx Cjk). destruct (Nat.ltb_spec k (S B)); [lia|].
          rewrite !A4 by lia. unfold OM. rewrite !(fu_other _ (i / 2)) by lia. rewrite fu_same, fu_other by lia. reflexivity. }
        split.
        { intros x Hx. assert (Nx : x <> i / 2) by (intros ->; apply (A1 b); now apply Cr_sym).
          assert (Nxj : x <> j) by (intros ->; apply Nbk; apply Cr_sym in Hx; auto; now apply (Cr_fun R8 (S B) j)).
          apply Oth in Hx; auto. rewrite (P1 x Hx). rewrite !A4 by auto. unfold OM. rewrite !fu_other by auto. reflexivity. }
        { intros Hn. rewrite P2. { rewrite A4 by auto. destruct (Nat.ltb_spec b (S B)); auto. rewrite A3, RMo by auto. unfold OM. rewrite !fu_other by auto. reflexivity. }
          intros x Hx. apply (Hn x). now apply Oth. }
    + destruct (write_uca_spec s v B R O i val H Hi HB) as (s2 & R2 & O2 & E2 & S2 & A1 & A2 & A3 & A4 & A5).
      exists s2, B, R2, O2. split; auto. split; auto. split; [now apply uca_effect|]. intros p (_ & P2). rewrite (P2 Ho). destruct (Nat.ltb_spec (i / 2) B); [reflexivity|lia].
  - destruct o as [k|].
    + pose proof Ho as (C1 & C2 & C3 & C4).
      assert (WB : forall p, Bv v B R O (i / 2) p -> B = if snd p then B else S B).
      { intros p (P1 & _). rewrite (P1 k Ho). destruct (Nat.ltb_spec (i / 2) B); [lia|reflexivity]. }
      unfold ia_write_wca. destruct (halves i) as [(X & Y)|(X & Y)].
      * rewrite Y. cbn [Nat.eqb]. destruct (st_put_odd s v B R O k val H C3) as (s1 & E1 & S1). rewrite E1.
        exists s1, B, R, (fu O k val). split; auto. split; auto. split; [|exact WB]. intros b p Lb (P1 & P2). unfold edit. rewrite Y. cbn [Nat.eqb].
        destruct (Nat.eqb_spec b (i / 2)) as [->|Nb].
        { rewrite (P1 k Ho). destruct (Nat.ltb_spec (i / 2) B) as [|Q]; [lia|]. split; [|intros Hn; now apply Hn in Ho].
          intros x Hx. destruct (Nat.ltb_spec (i / 2) B); [lia|]. rewrite (Cr_fun _ _ _ _ _ Hx Ho), fu_same, fu_other by lia. reflexivity. }
        split.
        { intros x Hx. rewrite (P1 x Hx). destruct (Nat.ltb_spec b B) as [|Q]; auto.
          assert (x <> k) by (intros ->; apply Nb; apply Cr_sym in Hx; auto; apply Cr_sym in Ho; auto; now apply (Cr_fun R B k)).
          rewrite !fu_other by (auto; lia). reflexivity. }
        { intros Hn. rewrite (P2 Hn). destruct (Nat.ltb_spec b B) as [Q|]; auto. rewrite fu_other; auto. intros ->. apply (Hn (i / 2)). now apply Cr_sym. }
      * rewrite Y. cbn [Nat.eqb]. destruct (st_put_odd s v B R O (i / 2) val H Hb) as (s1 & E1 & S1). rewrite <- X in E1. rewrite E1.
        exists s1, B, R, (fu O (i / 2) val). split; auto. split; auto. split; [|exact WB]. intros b p Lb (P1 & P2). unfold edit. rewrite Y. cbn [Nat.eqb].
        destruct (Nat.eqb_spec b (i / 2)) as [->|Nb].
        { rewrite (P1 k Ho). destruct (Nat.ltb_spec (i / 2) B) as [|Q]; [lia|]. split; [|intros Hn; now apply Hn in Ho].
          intros x Hx. destruct (Nat.ltb_spec (i / 2) B); [lia|]. rewrite (Cr_fun _ _ _ _ _ Hx Ho), fu_same, fu_other by lia. reflexivity. }
        split.
        { intros x Hx. rewrite (P1 x Hx). destruct (Nat.ltb_spec b B) as [|Q]; auto.
          assert (x <> i / 2) by (unfold Cr in Hx; lia).
          rewrite !fu_other by auto. reflexivity. }
        { intros Hn. rewrite (P2 Hn). destruct (Nat.ltb_spec b B) as [Q|]; auto. rewrite fu_other; auto. }
    + assert (WB : forall p, Bv v B R O (i / 2) p -> S B = if snd p then B else S B).
      { intros p (_ & P2). rewrite (P2 Ho). destruct (Nat.ltb_spec (i / 2) B); [lia|reflexivity]. }
      destruct (extend_spec s v B R O H ltac:(lia)) as (s1 & k & R1 & O1 & E1 & S1 & Lk & Lk' & Uk & Rk & Ok' & EV & EVk & EU & EW & EC).
      rewrite E1. cbn [bind]. cbv iota. destruct (Nat.eqb_spec (i / 2) k) as [Ek|Nk].
      * destruct (write_uca_spec s1 v (S B) R1 O1 i val S1 Hi ltac:(lia)) as (s2 & R2 & O2 & E2 & S2 & A1 & A2 & A3 & A4 & A5).
        assert (EX : Bv v (S B) R1 O1 (i / 2) (v, v, true)). { rewrite Ek. split; [intros x Hx; now apply Uk in Hx|]. intros _. destruct (Nat.ltb_spec k (S B)); [|lia]. now rewrite Rk, Ok'. }
        exists s2, (S B), R2, O2. split; auto. split; auto. split; [|exact WB]. eapply set_effect_trans; [rewrite Ek; exact EV|rewrite Ek; exact EVk|exact EX|]. apply uca_effect; auto; [lia|now rewrite Ek].
      * assert (HB' : B < i / 2).
        { assert (i / 2 <> B); [|lia]. intros X. rewrite X in *. destruct EC as [(-> & EC)|EC]; [auto|]. now apply Ho in EC. }
        assert (Ub : forall x, ~ Cr R1 (S B) (i / 2) x) by (now apply EW).
        unfold ia_init_block. assert (Ev1 : ia_init s1 = v) by apply S1. rewrite Ev1.
        destruct (st_put_odd s1 v (S B) R1 O1 (i / 2) v S1 Hb) as (s2 & E2 & S2). rewrite E2. cbn [bind]. assert (Ev2 : ia_init s2 = v) by apply S2. rewrite Ev2.
        destruct (st_put_even s2 v (S B) R1 _ (i / 2) v S2 Hb) as (s3 & E3 & S3). rewrite E3. cbn [bind].
        unfold ia_make_chain. destruct (st_set_to s3 v (S B) _ _ k (i / 2) S3 Lk' Hb) as (s4 & E4 & S4). rewrite E4. cbn [bind].
        destruct (st_set_to s4 v (S B) _ _ (i / 2) k S4 Hb Lk') as (s5 & E5 & S5). rewrite E5. cbn [bind].
        set (RM := fu (fu (fu R1 (i / 2) v) k (N.of_nat (2 * (i / 2)))) (i / 2) (N.of_nat (2 * k))) in *.
        set (OM := fu O1 (i / 2) v) in *.
        assert (RMk : RM k = N.of_nat (2 * (i / 2))) by (unfold RM; rewrite fu_other by lia; apply fu_same).
        assert (RMb : RM (i / 2) = N.of_nat (2 * k)) by (unfold RM; apply fu_same).
        assert (RMo : forall b, b <> k -> b <> i / 2 -> RM b = R1 b) by (intros; unfold RM; rewrite !fu_other by auto; reflexivity).
        assert (Cb : Cr RM (S B) (i / 2) k) by (repeat split; lia).
        assert (Ck : Cr RM (S B) k (i / 2)) by (now apply Cr_sym).
        assert (Oth : forall b x, b < nb -> b <> i / 2 -> b <> k -> (Cr RM (S B) b x <-> Cr R1 (S B) b x)).
        { intros b x Lb N1 N2. split; intros Hx.
          - assert (Ni : x <> i / 2) by (intros ->; apply N2; apply Cr_sym in Hx; auto; now apply (Cr_fun RM (S B) (i / 2))).
            assert (Nxk : x <> k) by (intros ->; apply N1; apply Cr_sym in Hx; auto; now apply (Cr_fun RM (S B) k)).
            unfold Cr in *. rewrite !RMo in Hx by auto. exact Hx.
          - assert (Nxk : x <> k) by (intros ->; apply (Uk b); now apply Cr_sym).
            assert (Ni : x <> i / 2) by (intros ->; apply (Ub b); now apply Cr_sym).
            unfold Cr in *. rewrite !RMo by auto. exact Hx. }
        assert (G : forall O', (forall b, b <> i / 2 -> b <> k -> O' b = OM b) -> (O' k, O' (i / 2), true) = edit i val (v, v, false) -> set_effect v B R O (S B) RM O' i val).
        { intros O' G1 G2 b p Lb P0. destruct (Nat.eq_dec b k) as [->|Nbk].
          { rewrite (EVk p P0). destruct (Nat.eqb_spec k (i / 2)) as [X|_]; [congruence|]. split; [|intros Hn; now apply Hn in Ck]. intros x Hx. destruct (Nat.ltb_spec k (S B)); [reflexivity|lia]. }
          destruct (EV b p Lb Nbk P0) as (P1 & P2). destruct (Nat.eqb_spec b (i / 2)) as [->|Nb].
          { rewrite (P2 Ub). destruct (Nat.ltb_spec (i / 2) (S B)) as [|Q]; [lia|]. split; [|intros Hn; now apply Hn in Cb].
            intros x Hx. rewrite (Cr_fun _ _ _ _ _ Hx Cb). destruct (Nat.ltb_spec (i / 2) (S B)); [lia|]. now rewrite G2. }
          split.
          { intros x Hx. apply Oth in Hx; auto. rewrite (P1 x Hx).
            assert (Nxk : x <> k) by (intros ->; apply (Uk b); now apply Cr_sym).
            assert (Ni : x <> i / 2) by (intros ->; apply (Ub b); now apply Cr_sym).
            rewrite !G1 by auto. unfold OM. rewrite !fu_other by auto. reflexivity. }
          { intros Hn. rewrite P2. { destruct (Nat.ltb_spec b (S B)); auto. rewrite RMo, G1 by auto. unfold OM. rewrite fu_other by auto. reflexivity. }
            intros x Hx. apply (Hn x). now apply Oth. } }
        unfold ia_write_wca. destruct (halves i) as [(X & Y)|(X & Y)]; rewrite Y; cbn [Nat.eqb].
        { destruct (st_put_odd s5 v (S B) RM OM k val S5 Lk') as (s6 & E6 & S6). rewrite E6. exists s6, (S B), RM, (fu OM k val). split; auto. split; auto. split; [|exact WB].
          apply G; [intros; now rewrite fu_other|]. unfold edit. rewrite Y. cbn [Nat.eqb snd]. rewrite fu_same, fu_other by auto.
          unfold OM. now rewrite fu_same. }
        { destruct (st_put_odd s5 v (S B) RM OM (i / 2) val S5 Hb) as (s6 & E6 & S6). rewrite <- X in E6. rewrite E6. exists s6, (S B), RM, (fu OM (i / 2) val). split; auto. split; auto. split; [|exact WB].
          apply G; [intros; now rewrite fu_other|]. unfold edit. rewrite Y. cbn [Nat.eqb fst]. rewrite fu_same, fu_other by auto.
          unfold OM. rewrite fu_other by auto. now rewrite Ok'. }
Qed.

(** Every element has the given value, and the pairs written since the last fill are the given ones *)
Definition count (wr : nat -> bool) : nat := length (filter wr (seq 0 nb)).
Definition holds (s : inplace) (val : nat -> N) (wr : nat -> bool) : Prop :=
  exists v B R O, st s v B R O /\ (forall b, b < nb -> Bv v B R O b (val (2 * b), val (2 * b + 1), wr b)) /\ B = count wr.

Lemma holds_get : forall s val wr i, next_ok \/ i mod 2 = 1 -> holds s val wr -> i < n -> ia_get next size s i = Ok (val i).
Proof.
  intros s val wr i Hnext (v & B & R & O & H & V & _) Hi. assert (Hb : i / 2 < nb) by (apply Nat.div_lt_upper_bound; [lia|]; rewrite <- n_even; auto).
  rewrite (ia_get_spec s v B R O i _ Hnext H Hi (V _ Hb)). unfold pick. destruct (halves i) as [(X & ->)|(X & ->)]; cbn [Nat.eqb fst snd]; now rewrite <- X.
Qed.

Lemma filter_add : forall (f : nat -> bool) x l, NoDup l -> In x l -> length (filter (fun b => (x =? b) || f b) l) = if f x then length (filter f l) else S (length (filter f l)).
Proof.
  intros f x l. induction l as [|y l IH]; intros ND I; [destruct I|]. inversion ND as [|? ? Ny ND']; subst. cbn [filter].
  assert (K : ~ In x l -> filter (fun b => (x =? b) || f b) l = filter f l).
  { clear. intros N. apply filter_ext_in. intros b Hb. destruct (Nat.eqb_spec x b); [subst; contradiction|reflexivity]. }
  destruct I as [->|I].
  - rewrite Nat.eqb_refl. cbn [orb length]. rewrite (K Ny). destruct (f x); reflexivity.
  - specialize (IH ND' I). destruct (Nat.eqb_spec x y) as [->|]; [contradiction|]. cbn [orb]. destruct (f y); cbn [length]; rewrite IH; destruct (f x); reflexivity.
Qed.
Lemma count_add : forall wr x, x < nb -> count (fun b => (x =? b) || wr b) = if wr x then count wr else S (count wr).
Proof. intros wr x Hx. apply filter_add; [apply seq_NoDup|apply in_seq; lia]. Qed.

Lemma holds_set : forall s val wr i x, holds s val wr -> i < n ->
  exists s', ia_set w size s i x = Ok s' /\ holds s' (fun j => if j =? i then x else val j) (fun b => (i / 2 =? b) || wr b).
Proof.
  intros s val wr i x (v & B & R & O & H & V & C) Hi. destruct (ia_set_spec s v B R O i x H Hi) as (s' & B' & R' & O' & E & S' & EF & EB).
  assert (Hb : i / 2 < nb) by (apply Nat.div_lt_upper_bound; [lia|]; rewrite <- n_even; auto).
  exists s'. split; auto. exists v, B', R', O'. split; auto. split.
  - intros b Lb. specialize (EF b _ Lb (V b Lb)).
    replace (if 2 * b =? i then x else val (2 * b), if 2 * b + 1 =? i then x else val (2 * b + 1), (i / 2 =? b) || wr b)
      with (if b =? i / 2 then edit i x (val (2 * b), val (2 * b + 1), wr b) else (val (2 * b), val (2 * b + 1), wr b)); [exact EF|].
    unfold edit. rewrite (Nat.eqb_sym (i / 2) b). destruct (halves i) as [(X & ->)|(X & ->)]; cbn [Nat.eqb fst snd];
      destruct (Nat.eqb_spec b (i / 2)), (Nat.eqb_spec (2 * b) i), (Nat.eqb_spec (2 * b + 1) i); cbn [orb]; auto; lia.
  - rewrite (EB _ (V _ Hb)). cbn [snd]. rewrite count_add by auto. now rewrite C.
Qed.

Lemma holds_fill : forall a v, length a = n -> holds (IA v 0 a) (fun _ => v) (fun _ => false).
Proof.
  intros a v L. exists v, 0, (fun b => nth (2 * b) a 0%N), (fun b => nth (2 * b + 1) a 0%N). split; [repeat split; auto|]. split.
  - intros b Lb. split.
    + intros k (_ & _ & _ & X). lia.
    + intros _. reflexivity.
  - unfold count. induction (seq 0 nb); auto.
Qed.

Lemma ia_history : forall mem v ops, length mem = n -> Forall (ia_op_in n) ops ->
  exists s, ia_run w size mem v ops = Ok s /\ holds s (ia_last v (rev ops)) (pair_written (rev ops)).
Proof.
  intros mem v ops L F. unfold ia_run. induction ops using rev_ind.
  - eexists. split; [reflexivity|]. now apply holds_fill.
  - apply Forall_app in F. destruct F as (F & Fx). apply Forall_inv in Fx. destruct (IHops F) as (s & E & I). rewrite foldM_app, E. cbn [bind foldM].
    rewrite rev_app_distr. cbn [rev app]. destruct x; cbn [ia_step ia_op_in] in *.
    + cbn [bind]. eexists. split; [reflexivity|]. apply holds_fill.
      destruct I as (? & ? & ? & ? & (X & _) & _). exact X.
    + destruct (holds_set s _ _ i v0 I Fx) as (s' & E' & I'). rewrite E'. cbn [bind]. exists s'. split; auto.
Qed.

Lemma ia_history_get : forall mem v ops, length mem = n -> Forall (ia_op_in size) ops ->
  exists s, ia_run w size mem v ops = Ok s /\ forall i, next_ok \/ i mod 2 = 1 -> i < size -> ia_get next size s i = Ok (ia_last v (rev ops) i).
Proof.
  intros mem v ops L F. assert (Ls : size <= n) by (unfold kActualSize; lia).
  destruct (ia_history mem v ops L) as (s & E & I).
  - eapply Forall_impl; [|exact F]. intros [|]; simpl; auto. lia.
  - exists s. split; auto. intros. eapply holds_get; eauto. lia.
Qed.
End InPlace.

(** *** Integer element types *)
Lemma ia_unsigned : forall w size mem v ops, in_place_case w size -> length mem = kActualSize size -> Forall (ia_op_in size) ops ->
  exists s, ia_run w size mem v ops = Ok s /\ forall i, i < size -> ia_get (next_unsigned w) size s i = Ok (ia_last v (rev ops) i).
Proof.
  intros w size mem v ops (Hd & Hn) L F. destruct (ia_history_get w (next_unsigned w) size Hn mem v ops L F) as (s & E & G).
  exists s. split; auto. intros i Hi. apply G; auto. left. intros k Hk. unfold next_unsigned. destruct (N.ltb_spec w 32).
  - f_equal. lia.
  - assert ((N.of_nat (2 * k) + 1 < 2 ^ w)%N).
    { assert (N.of_nat (2 * k) + 1 <> 2 ^ w)%N; [|lia]. intros X. replace w with (N.succ (w - 1)) in X by lia. rewrite N.pow_succ_r' in X. lia. }
    rewrite N.mod_small by auto. f_equal. lia.
Qed.
Lemma ia_signed : forall w size mem v ops, (1 < w)%N -> in_place_case (w - 1) size -> length mem = kActualSize size -> Forall (ia_op_in size) ops ->
  exists s, ia_run w size mem v ops = Ok s /\ forall i, i < size -> ia_get (next_signed w) size s i = Ok (ia_last v (rev ops) i).
Proof.
  intros w size mem v ops Hw (Hd & Hn) L F. assert (Hn' : (N.of_nat (kActualSize size) <= 2 ^ w)%N).
  { assert (2 ^ (w - 1) <= 2 ^ w)%N by (apply N.pow_le_mono_r; lia). lia. }
  destruct (ia_history_get w (next_signed w) size Hn' mem v ops L F) as (s & E & G).
  exists s. split; auto. intros i Hi. apply G; auto. left.
  - intros k Hk. unfold next_signed. destruct (N.ltb_spec (N.of_nat (2 * k)) (2 ^ (w - 1))); [f_equal; lia|lia].
Qed.

(** *** Any element type: elements with odd index *)
Lemma ia_odd : forall w digits next size mem v ops, (digits <= w)%N -> in_place_case digits size -> length mem = kActualSize size -> Forall (ia_op_in size) ops ->
  exists s, ia_run w size mem v ops = Ok s /\ forall i, i < size -> i mod 2 = 1 -> ia_get next size s i = Ok (ia_last v (rev ops) i).
Proof.
  intros w digits next size mem v ops Hd (_ & Hn) L F. assert (Hn' : (N.of_nat (kActualSize size) <= 2 ^ w)%N).
  { assert (2 ^ digits <= 2 ^ w)%N by (apply N.pow_le_mono_r; lia). lia. }
  destruct (ia_history_get w next size Hn' mem v ops L F) as (s & E & G). exists s. split; auto.
Qed.
