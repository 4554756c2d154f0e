(** The combinatorics of the circular table of CHT.hpp, on the unrolled line: slot z of the line is slot (z mod B) of the table.
    O, C, S are the occupied, continuation and shifted flags; H z is the home of the entry in slot z, on the line. *)
From Coq Require Import ZArith Lia Bool List.
Local Open Scope Z_scope.

Record ring (B : Z) (U O C S : Z -> bool) (H : Z -> Z) : Prop := {
  r_B : 1 <= B;
  r_U : forall z, U z = O z || C z || S z;
  r_perO : forall z m, O (z + m * B) = O z;
  r_perC : forall z m, C (z + m * B) = C z;
  r_perS : forall z m, S (z + m * B) = S z;
  r_perH : forall z m, H (z + m * B) = H z + m * B;
  r_le : forall z, U z = true -> H z <= z /\ forall y, H z <= y -> y <= z -> U y = true;
  r_adj : forall z, U z = true -> U (z + 1) = true -> H z <= H (z + 1);
  r_S : forall z, S z = true <-> U z = true /\ H z < z;
  r_C : forall z, C z = true <-> U z = true /\ U (z - 1) = true /\ H (z - 1) = H z;
  r_O : forall b, O b = true <-> exists z, U z = true /\ H z = b;
  r_cut : exists u, S u = false }.

(** first position satisfying a predicate *)
Lemma first_from : forall (p : Z -> bool) (n : nat) b, p (b + Z.of_nat n) = true ->
  exists z, b <= z <= b + Z.of_nat n /\ p z = true /\ forall y, b <= y < z -> p y = false.
Proof.
  intros p. induction n; intros b Hp.
  - exists b. replace (b + Z.of_nat 0) with b in Hp by lia. split; [lia|]. split; auto. intros; lia.
  - destruct (p b) eqn:E.
    + exists b. split; [lia|]. split; auto. intros; lia.
    + destruct (IHn (b + 1)) as (z & Hz & Pz & N); [now replace (b + 1 + Z.of_nat n) with (b + Z.of_nat (Datatypes.S n)) by lia|].
      exists z. split; [lia|]. split; auto. intros y Hy. destruct (Z.eq_dec y b) as [->|]; auto. apply N. lia.
Qed.
Lemma first_between : forall (p : Z -> bool) b e, b <= e -> p e = true ->
  exists z, b <= z <= e /\ p z = true /\ forall y, b <= y < z -> p y = false.
Proof.
  intros p b e Hbe Hp. destruct (first_from p (Z.to_nat (e - b)) b) as (z & Hz & R).
  - now replace (b + Z.of_nat (Z.to_nat (e - b))) with e by lia.
  - exists z. split; [lia|auto].
Qed.
Lemma last_between : forall (p : Z -> bool) b e, b <= e -> p b = true ->
  exists z, b <= z <= e /\ p z = true /\ forall y, z < y <= e -> p y = false.
Proof.
  intros p b e Hbe Hp. destruct (first_between (fun z => p (- z)) (- e) (- b)) as (z & Hz & P & N); [lia|now rewrite Z.opp_involutive|].
  exists (- z). split; [lia|]. split; auto. intros y Hy. replace y with (- - y) by lia. apply N. lia.
Qed.

(** number of positions in [a, a + n) satisfying p *)
Fixpoint count (p : Z -> bool) (a : Z) (n : nat) : nat :=
  match n with Datatypes.O => 0%nat | Datatypes.S n => ((if p a then 1 else 0) + count p (a + 1) n)%nat end.
Definition cnt (p : Z -> bool) (a e : Z) : nat := count p a (Z.to_nat (e - a)).
Lemma cnt_nil : forall p a e, e <= a -> cnt p a e = 0%nat.
Proof. intros. unfold cnt. replace (Z.to_nat (e - a)) with 0%nat by lia. reflexivity. Qed.
Lemma cnt_cons : forall p a e, a < e -> cnt p a e = ((if p a then 1 else 0) + cnt p (a + 1) e)%nat.
Proof. intros. unfold cnt. replace (Z.to_nat (e - a)) with (Datatypes.S (Z.to_nat (e - (a + 1)))) by lia. reflexivity. Qed.
Lemma cnt_app : forall p b e a, a <= b -> b <= e -> cnt p a e = (cnt p a b + cnt p b e)%nat.
Proof.
  intros p b e a Hab Hbe. remember (Z.to_nat (b - a)) as n eqn:En. revert a Hab En. induction n; intros a Hab En.
  - assert (a = b) by lia. subst. rewrite (cnt_nil p b b) by lia. reflexivity.
  - rewrite (cnt_cons p a e), (cnt_cons p a b) by lia. rewrite (IHn (a + 1)) by lia. lia.
Qed.
Lemma cnt_none : forall p e a, (forall y, a <= y < e -> p y = false) -> cnt p a e = 0%nat.
Proof.
  intros p e a. remember (Z.to_nat (e - a)) as n eqn:En. revert a En. induction n; intros a En N.
  - apply cnt_nil. lia.
  - rewrite cnt_cons by lia. rewrite N by lia. apply IHn; [lia|]. intros. apply N. lia.
Qed.
Lemma cnt_snoc : forall p a e, a <= e -> cnt p a (e + 1) = (cnt p a e + (if p e then 1 else 0))%nat.
Proof. intros. rewrite (cnt_app p e (e + 1)) by lia. rewrite (cnt_cons p e (e + 1)), (cnt_nil p (e + 1)) by lia. lia. Qed.
Lemma cnt_shift : forall p k a e, (forall z, p (z + k) = p z) -> cnt p (a + k) (e + k) = cnt p a e.
Proof.
  intros p k a e Hp. unfold cnt. replace (Z.to_nat (e + k - (a + k))) with (Z.to_nat (e - a)) by lia. generalize (Z.to_nat (e - a)). intros n. revert a.
  induction n; intros a; simpl; auto. rewrite Hp. f_equal. replace (a + k + 1) with (a + 1 + k) by lia. apply IHn.
Qed.
Lemma cnt_le : forall p a e, a <= e -> (cnt p a e <= Z.to_nat (e - a))%nat.
Proof.
  intros p a e _. unfold cnt. generalize (Z.to_nat (e - a)). intros n. revert a. induction n; intros a; simpl; [lia|]. specialize (IHn (a + 1)). destruct (p a); lia.
Qed.
Lemma cnt_full : forall p e a, a <= e -> (forall y, a <= y < e -> p y = true) -> cnt p a e = Z.to_nat (e - a).
Proof.
  intros p e a Hae. remember (Z.to_nat (e - a)) as n eqn:En. revert a Hae En. induction n; intros a Hae En N.
  - apply cnt_nil. lia.
  - rewrite cnt_cons by lia. rewrite N by lia. rewrite IHn; try lia. intros. apply N. lia.
Qed.
Lemma cnt_lt_free : forall p e a, (cnt p a e < Z.to_nat (e - a))%nat -> exists u, a <= u < e /\ p u = false.
Proof.
  intros p e a. remember (Z.to_nat (e - a)) as n eqn:En. revert a En. induction n; intros a En N; [lia|].
  rewrite cnt_cons in N by lia. destruct (p a) eqn:E.
  - destruct (IHn (a + 1)) as (u & Hu & P); [lia|lia|]. exists u. split; [lia|auto].
  - exists a. split; [lia|auto].
Qed.
Lemma cnt_ext : forall p q a e, (forall y, a <= y < e -> p y = q y) -> cnt p a e = cnt q a e.
Proof.
  intros p q a e. remember (Z.to_nat (e - a)) as n eqn:En. revert a En. induction n; intros a En N.
  - now rewrite !cnt_nil by lia.
  - rewrite (cnt_cons p a e), (cnt_cons q a e) by lia. rewrite N by lia. f_equal. apply IHn; [lia|]. intros. apply N. lia.
Qed.

Section Ring.
Variables (B : Z) (U O C S : Z -> bool) (H : Z -> Z).
Hypothesis R : ring B U O C S H.

Lemma perU : forall z m, U (z + m * B) = U z.
Proof. intros. rewrite !(r_U _ _ _ _ _ _ R). now rewrite (r_perO _ _ _ _ _ _ R), (r_perC _ _ _ _ _ _ R), (r_perS _ _ _ _ _ _ R). Qed.

Lemma free_in : (exists u, U u = false) -> forall a, exists u, a <= u < a + B /\ U u = false.
Proof.
  intros (u & Hu) a. pose proof (r_B _ _ _ _ _ _ R) as HB.
  exists (a + (u - a) mod B). pose proof (Z.mod_pos_bound (u - a) B ltac:(lia)). split; [lia|].
  replace (a + (u - a) mod B) with (u + (- ((u - a) / B)) * B) by (pose proof (Z.div_mod (u - a) B ltac:(lia)); lia). now rewrite perU.
Qed.
Lemma cut_in : forall a, exists u, a <= u < a + B /\ S u = false.
Proof.
  intros a. destruct (r_cut _ _ _ _ _ _ R) as (u & Hu). pose proof (r_B _ _ _ _ _ _ R) as HB.
  exists (a + (u - a) mod B). pose proof (Z.mod_pos_bound (u - a) B ltac:(lia)). split; [lia|].
  replace (a + (u - a) mod B) with (u + (- ((u - a) / B)) * B) by (pose proof (Z.div_mod (u - a) B ltac:(lia)); lia). now rewrite (r_perS _ _ _ _ _ _ R).
Qed.

Lemma mono : forall z y, y <= z -> U y = true -> U z = true -> H y <= H z.
Proof.
  intros z y Hyz Hy Hz. remember (Z.to_nat (z - y)) as n eqn:En. revert z Hyz Hz En. induction n; intros z Hyz Hz En.
  - replace z with y by lia. lia.
  - destruct (U (z - 1)) eqn:E.
    + apply Z.le_trans with (H (z - 1)); [apply IHn; auto; lia|]. pose proof (r_adj _ _ _ _ _ _ R (z - 1) E) as A. replace (z - 1 + 1) with z in A by lia. auto.
    + destruct (r_le _ _ _ _ _ _ R z Hz) as (Hl & Hi). destruct (Z_lt_le_dec (z - 1) (H z)); [|rewrite Hi in E by lia; discriminate].
      destruct (r_le _ _ _ _ _ _ R y Hy). lia.
Qed.

Lemma occ_used : forall b, O b = true -> U b = true.
Proof. intros b Hb. now rewrite (r_U _ _ _ _ _ _ R), Hb. Qed.
Lemma home_occ : forall z, U z = true -> O (H z) = true.
Proof. intros z Hz. apply (r_O _ _ _ _ _ _ R). eauto. Qed.
Lemma unshifted_home : forall z, U z = true -> S z = false -> H z = z.
Proof.
  intros z Hz Hs. destruct (r_le _ _ _ _ _ _ R z Hz) as (Hl & _). destruct (Z.eq_dec (H z) z); auto.
  assert (S z = true) by (apply (r_S _ _ _ _ _ _ R); split; auto; lia). congruence.
Qed.
Lemma shifted_used : forall z, S z = true -> U z = true.
Proof. intros z Hz. apply (r_S _ _ _ _ _ _ R) in Hz. tauto. Qed.
Lemma shifted_prev : forall z, S z = true -> U (z - 1) = true.
Proof. intros z Hz. apply (r_S _ _ _ _ _ _ R) in Hz. destruct Hz as (Hz & Hl). destruct (r_le _ _ _ _ _ _ R z Hz) as (_ & Hi). apply Hi; lia. Qed.
Lemma no_occ_between : forall z b, U z = true -> U (z + 1) = true -> H z < b -> b < H (z + 1) -> O b = false.
Proof.
  intros z b Hz Hz1 H1 H2. destruct (O b) eqn:E; auto. apply (r_O _ _ _ _ _ _ R) in E. destruct E as (w & Hw & Ew).
  destruct (Z_le_gt_dec w z).
  - pose proof (mono z w ltac:(lia) Hw Hz). lia.
  - pose proof (mono w (z + 1) ltac:(lia) Hz1 Hw). lia.
Qed.

(** The position where the entries with home at least [b] begin *)
Definition is_ins (b i : Z) : Prop := b <= i /\ (forall y, b <= y -> y < i -> U y = true /\ H y < b) /\ (U i = true -> b <= H i).
Lemma ins_exists : forall b, exists i, is_ins b i /\ i < b + B.
Proof.
  intros b. destruct (cut_in b) as (u & Hu & Su).
  destruct (first_between (fun z => negb (U z && (H z <? b))) b u) as (i & Hi & Pi & N); [lia| |].
  { destruct (U u) eqn:Uu; auto. rewrite unshifted_home by auto. simpl. apply negb_true_iff, Z.ltb_ge. lia. }
  exists i. split; [|lia]. split; [lia|]. split.
  - intros y Hy Hyi. specialize (N y ltac:(lia)). apply negb_false_iff, andb_prop in N. destruct N as (N1 & N2). apply Z.ltb_lt in N2. auto.
  - intros Ui. apply negb_true_iff, andb_false_iff in Pi. destruct Pi as [P|P]; [congruence|]. apply Z.ltb_ge in P. auto.
Qed.
Lemma ins_not_cont : forall b i, is_ins b i -> C i = false.
Proof.
  intros b i (Hi & Hb & Hn). destruct (C i) eqn:E; auto. apply (r_C _ _ _ _ _ _ R) in E. destruct E as (U1 & U2 & E). specialize (Hn U1).
  destruct (Z.eq_dec i b) as [->|].
  - destruct (r_le _ _ _ _ _ _ R _ U2). lia.
  - destruct (Hb (i - 1)); lia.
Qed.
Lemma ins_unshifted : forall b, S b = false -> is_ins b b.
Proof. intros b Hs. split; [lia|]. split; [intros; lia|]. intros Ub. rewrite unshifted_home by auto. lia. Qed.

(** walking back from a shifted slot *)
Lemma back_exists : forall b, S b = true -> exists c, b - B < c < b /\ S c = false /\ (forall y, c < y -> y <= b -> S y = true) /\ U c = true /\ H c = c.
Proof.
  intros b Hs. destruct (cut_in (b - B + 1)) as (u & Hu & Su).
  destruct (last_between (fun z => negb (S z)) u b) as (c & Hc & Pc & N); [lia|now rewrite Su|].
  apply negb_true_iff in Pc. assert (c <> b) by congruence. exists c. split; [lia|]. split; auto.
  assert (Sh : forall y, c < y -> y <= b -> S y = true) by (intros y Y1 Y2; specialize (N y ltac:(lia)); now apply negb_false_iff in N).
  split; auto. assert (Uc : U c = true).
  { replace c with (c + 1 - 1) by lia. apply shifted_prev. apply Sh; lia. }
  split; auto. now apply unshifted_home.
Qed.
(** from such a position up to the insertion point everything is used with smaller home *)
Lemma span_used : forall b c i, S c = false -> (forall y, c < y -> y <= b -> S y = true) -> U c = true -> c < b -> is_ins b i ->
  forall y, c <= y -> y < i -> U y = true /\ H y < b /\ c <= H y.
Proof.
  intros b c i Sc Sh Uc Hcb (Hi & Hb & _) y Hy Hyi.
  assert (Uy : U y = true).
  { destruct (Z_lt_le_dec y b); [|now apply Hb]. destruct (Z.eq_dec y c) as [->|]; auto. apply shifted_used, Sh; lia. }
  split; auto. split.
  - destruct (Z_lt_le_dec y b); [|now apply Hb]. destruct (r_le _ _ _ _ _ _ R _ Uy). lia.
  - pose proof (mono y c Hy Uc Uy). rewrite (unshifted_home c) in H0; auto.
Qed.
Lemma no_occ_before_ins : forall b i z h, is_ins b i -> U z = true -> z = i - 1 -> H z < h -> h < b -> O h = false.
Proof.
  intros b i z h (Hi & Hb & Hn) Uz -> H1 H2. destruct (O h) eqn:E; auto. apply (r_O _ _ _ _ _ _ R) in E. destruct E as (w & Uw & Ew).
  assert (i <= w) by (destruct (Z_le_gt_dec w (i - 1)) as [l|]; [pose proof (mono (i - 1) w l Uw Uz); lia|lia]).
  destruct (r_le _ _ _ _ _ _ R w Uw) as (_ & Iw). assert (Ui : U i = true) by (apply Iw; lia). specialize (Hn Ui). pose proof (mono w i ltac:(lia) Ui Uw). lia.
Qed.
(** the count of run starts still to pass equals 1 + the occupied homes after the current one *)
Lemma forward_step : forall b c i z, S c = false -> (forall y, c < y -> y <= b -> S y = true) -> U c = true -> c < b -> is_ins b i ->
  c <= z -> z + 1 < i ->
  (C (z + 1) = true -> cnt O (H z + 1) b = cnt O (H (z + 1) + 1) b) /\
  (C (z + 1) = false -> cnt O (H z + 1) b = Datatypes.S (cnt O (H (z + 1) + 1) b)).
Proof.
  intros b c i z Sc Sh Uc Hcb I Hz Hz1.
  destruct (span_used b c i Sc Sh Uc Hcb I z Hz ltac:(lia)) as (Uz & Lz & Gz).
  destruct (span_used b c i Sc Sh Uc Hcb I (z + 1) ltac:(lia) Hz1) as (Uz1 & Lz1 & Gz1).
  split; intros E.
  - apply (r_C _ _ _ _ _ _ R) in E. destruct E as (_ & _ & E). replace (z + 1 - 1) with z in E by lia. now rewrite E.
  - assert (Ne : H z < H (z + 1)).
    { pose proof (r_adj _ _ _ _ _ _ R z Uz Uz1). destruct (Z.eq_dec (H z) (H (z + 1))) as [Eq|]; [|lia].
      assert (C (z + 1) = true) by (apply (r_C _ _ _ _ _ _ R); replace (z + 1 - 1) with z by lia; auto). congruence. }
    rewrite (cnt_app O (H (z + 1)) b (H z + 1)) by lia. rewrite (cnt_none O (H (z + 1)) (H z + 1)).
    2:{ intros y Hy. apply (no_occ_between z y); auto; lia. }
    rewrite (cnt_cons O (H (z + 1)) b) by lia. rewrite home_occ by auto. reflexivity.
Qed.
Lemma forward_last : forall b c i, S c = false -> (forall y, c < y -> y <= b -> S y = true) -> U c = true -> c < b -> is_ins b i ->
  cnt O (H (i - 1) + 1) b = 0%nat.
Proof.
  intros b c i Sc Sh Uc Hcb I. destruct (span_used b c i Sc Sh Uc Hcb I (i - 1)) as (Ui & _); [destruct I; lia|lia|].
  apply cnt_none. intros y Hy. apply (no_occ_before_ins b i (i - 1) y); auto; lia.
Qed.

(** the run of an occupied home *)
Lemma run_start : forall b i, is_ins b i -> O b = true -> U i = true /\ H i = b /\ forall w, U w = true -> H w = b -> i <= w.
Proof.
  intros b i (Hi & Hb & Hn) Ob. apply (r_O _ _ _ _ _ _ R) in Ob. destruct Ob as (w & Uw & Ew).
  assert (G : forall w, U w = true -> H w = b -> i <= w).
  { intros x Ux Ex. destruct (r_le _ _ _ _ _ _ R x Ux). destruct (Z_lt_le_dec x i); [|lia]. destruct (Hb x); lia. }
  pose proof (G w Uw Ew). destruct (r_le _ _ _ _ _ _ R w Uw) as (_ & Iw). assert (Ui : U i = true) by (apply Iw; lia). split; auto. split; auto.
  specialize (Hn Ui). pose proof (mono w i ltac:(lia) Ui Uw). lia.
Qed.
Definition is_run_end (b i e : Z) : Prop := i < e /\ (forall y, i <= y -> y < e -> U y = true /\ H y = b) /\ ~ (U e = true /\ H e = b).
Lemma run_end_exists : forall b i, is_ins b i -> O b = true -> exists e, is_run_end b i e /\ e <= b + B.
Proof.
  intros b i I Ob. destruct (run_start b i I Ob) as (Ui & Ei & _). destruct (cut_in (b + 1)) as (u & Hu & Su).
  assert (i <= u). { destruct I as (Hi & Hb & Hn). destruct (Z_lt_le_dec u i); auto. destruct (Hb u ltac:(lia) l) as (Uu & Lu). rewrite unshifted_home in Lu by auto. lia. }
  destruct (first_between (fun z => negb (U z && (H z =? b))) i u) as (e & He & Pe & N); [lia| |].
  { destruct (U u) eqn:Uu; auto. rewrite unshifted_home by auto. simpl. apply negb_true_iff, Z.eqb_neq. lia. }
  assert (Ne : forall y, i <= y -> y < e -> U y = true /\ H y = b).
  { intros y Y1 Y2. specialize (N y ltac:(lia)). apply negb_false_iff, andb_prop in N. destruct N as (N1 & N2). apply Z.eqb_eq in N2. auto. }
  assert (Pe' : ~ (U e = true /\ H e = b)).
  { intros (E1 & E2). apply negb_true_iff, andb_false_iff in Pe. destruct Pe as [P|P]; [congruence|]. apply Z.eqb_neq in P. auto. }
  exists e. split; [|lia]. split; [|split; auto]. destruct (Z.eq_dec e i) as [->|]; [exfalso; auto|lia].
Qed.
Lemma run_cont : forall b i e z, is_run_end b i e -> i <= z -> z + 1 < e -> C (z + 1) = true.
Proof.
  intros b i e z (Hie & Hr & _) Hz Hz1. destruct (Hr z); [lia|lia|]. destruct (Hr (z + 1)); [lia|lia|].
  apply (r_C _ _ _ _ _ _ R). replace (z + 1 - 1) with z by lia. split; auto. split; auto. congruence.
Qed.
Lemma run_end_not_cont : forall b i e, is_run_end b i e -> C e = false.
Proof.
  intros b i e (Hie & Hr & He). destruct (C e) eqn:E; auto. apply (r_C _ _ _ _ _ _ R) in E. destruct E as (U1 & U2 & E). exfalso. apply He. split; auto.
  destruct (Hr (e - 1)); [lia|lia|]. congruence.
Qed.
Lemma run_all : forall b i e w, is_ins b i -> O b = true -> is_run_end b i e -> U w = true -> H w = b -> i <= w /\ w < e.
Proof.
  intros b i e w I Ob (Hie & Hr & He) Uw Ew. destruct (run_start b i I Ob) as (Ui & Ei & G). pose proof (G w Uw Ew) as Hw. split; auto.
  destruct (Z_lt_le_dec w e); auto. exfalso. apply He. destruct (r_le _ _ _ _ _ _ R w Uw) as (_ & Iw).
  assert (Ue : U e = true) by (apply Iw; destruct I; lia). split; auto. pose proof (mono w e l Ue Uw). pose proof (mono e i ltac:(lia) Ui Ue). lia.
Qed.

(** Where a new entry with home [b] goes *)
Definition is_spot (b p : Z) : Prop :=
  b <= p /\ (forall y, b <= y -> y < p -> U y = true /\ H y <= b) /\ (U p = true -> b < H p) /\ C p = false /\
  (if O b then b < p /\ H (p - 1) = b else True).
Lemma spot_new : forall b i, is_ins b i -> O b = false -> is_spot b i.
Proof.
  intros b i I Ob. pose proof (ins_not_cont b i I). destruct I as (Hi & Hb & Hn). split; auto. split; [|split; [|split; auto; now rewrite Ob]].
  - intros y Y1 Y2. destruct (Hb y Y1 Y2). split; auto. lia.
  - intros Ui. specialize (Hn Ui). assert (H i <> b) by (intros E; pose proof (home_occ i Ui); congruence). lia.
Qed.
Lemma spot_old : forall b i e, is_ins b i -> O b = true -> is_run_end b i e -> is_spot b e.
Proof.
  intros b i e I Ob Re. pose proof (run_end_not_cont b i e Re). destruct (run_start b i I Ob) as (Ui & Ei & _). destruct I as (Hi & Hb & Hn). destruct Re as (Hie & Hr & He).
  split; [lia|]. split; [|split; [|split; auto]].
  - intros y Y1 Y2. destruct (Z_lt_le_dec y i).
    + destruct (Hb y Y1 l). split; auto. lia.
    + destruct (Hr y l Y2). split; auto. lia.
  - intros Ue. pose proof (mono e i ltac:(lia) Ui Ue). destruct (Z.eq_dec (H e) b); [exfalso; auto|lia].
  - rewrite Ob. split; [lia|]. destruct (Hr (e - 1)); [lia|lia|]. auto.
Qed.
Lemma gap_exists : (exists u, U u = false) -> forall b p, is_spot b p -> exists j, p <= j < b + B /\ U j = false /\ forall y, p <= y -> y < j -> U y = true.
Proof.
  intros Fr b p (Hbp & Hb & _). destruct (free_in Fr b) as (u & Hu & Fu).
  assert (p <= u). { destruct (Z_lt_le_dec u p); auto. destruct (Hb u); try lia. congruence. }
  destruct (first_between (fun z => negb (U z)) p u) as (j & Hj & Pj & N); [lia|now rewrite Fu|].
  exists j. split; [lia|]. split; [now apply negb_true_iff|]. intros y Y1 Y2. specialize (N y ltac:(lia)). now apply negb_false_iff.
Qed.
End Ring.
