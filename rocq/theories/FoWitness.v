(** A text for which the construction of the factor oracle does not end: at the last letter the list of free slots is empty. *)
From Coq Require Import List NArith ZArith Arith Bool Lia Permutation.
From Verif Require Import Base FoModel FoRing FoFree FoArray FoOracle FoProof.
Import ListNotations.
Local Open Scope nat_scope.

(** insertion with an empty list of free slots, when a new base is needed *)
Lemma insert_empty : forall ck, (forall i, i < length ck -> (0 < nth i ck 0 < 256)%N) -> forall st q log s n, Arr ck st q [] log -> s < n -> valid ck n ->
  match base_at st s with Some b => ut_at st (slot b (chk ck n)) = true | None => True end -> forall fuel, insert_trans fuel st s n = Fuel.
Proof.
  intros ck Hck st q log s n A Ls Vn Hu fuel. pose proof A as [F Ec Hq (U0 & N0) Bl Ba Inj Ed Own Ct]. assert (Hs : s < length ck) by (destruct Vn; lia). pose proof (chk_pos ck Hck n Vn) as Hn.
  unfold insert_trans. rewrite Ec, check_ok by auto. cbn [bind]. rewrite (lget_nth _ (fb_base st) s None) by lia. cbn [bind]. destruct (base_at st s) as [b|] eqn:Eb.
  - destruct (Ba s b Eb) as (_ & Lb & Ub). assert (Sl : slot b (chk ck n) < 256 * q) by (apply slot_lt; tauto). rewrite (lget_nth _ (fb_ut st) _ false) by (rewrite (fr_ut _ _ _ F); auto). cbn [bind]. rewrite Hu.
    destruct (get_transes_ok ck Hck st q [] log s b A Eb) as (ts & Et & NDt & Ht). rewrite Et. cbn [bind].
    assert (Vts : Forall (valid ck) ts) by (apply Forall_forall; intros t It; apply Ht in It; apply (Ed s t It)).
    destruct ts as [|t0 l].
    + rewrite (find_empty ck (Hck' ck Hck) fuel st q _ n []); auto.
    + inversion Vts; subst. rewrite (find_empty (fb_check st) (Hck' _ Hck) fuel st q _ t0 (l ++ [n])); auto.
  - rewrite (find_empty ck (Hck' ck Hck) fuel st q [n] n []); auto.
Qed.

(** the state before the letter i, and what the insertion then meets *)
Definition probe (fuel : nat) (ck : list N) (i : nat) : res (nat * nat * nat * bool) :=
  do st <- fo_grow (length ck) (fo_init ck); do st <- set_next st 0 0; do r <- foldM (fo_letter fuel) (seq 0 i) (st, repeat 0 (length ck + 1));
  let '(st, lrs) := r in do lrs <- lset lrs 0 (i + 1); do k <- lget lrs i; do t <- fo_transition st k (i + 1);
  Ok (fb_front st, k, t, match nth k (fb_base st) None with Some b => nth (slot b (nth i ck 0%N)) (fb_ut st) false | None => true end).
Lemma diverges : forall ck, nonzero_bytes ck -> forall i, i < length ck -> forall fuel0 k, k < i + 1 -> probe fuel0 ck i = Ok (0, k, 0, true) -> forall fuel, fo_build fuel ck = Fuel.
Proof.
  intros ck Hb i Hi fuel0 k Hk P fuel. pose proof (nonzero_nth _ Hb) as Hck. destruct (build_ok ck Hck fuel ltac:(lia)) as (q1 & _ & [(E & _)|(o & log & lrs & E & _)]); auto. exfalso.
  destruct (start_ok ck Hck ltac:(lia)) as (st & q0 & R & Es & A & Hq). unfold probe in P. unfold fo_build in E. apply bind_Ok_inv in Es. destruct Es as (st0 & E0 & E1). rewrite E0 in E, P. cbn [bind] in E, P. rewrite E1 in E, P. cbn [bind] in E, P.
  replace (length ck) with (i + (1 + (length ck - i - 1))) in E at 1 by lia. rewrite seq_app, foldM_app in E. apply bind_Ok_inv in E. destruct E as (r & E & _). apply bind_Ok_inv in E. destruct E as (r79 & E2 & E3).
  apply bind_Ok_inv in P. destruct P as (r79' & P2 & P3).
  (* both runs are the run with the larger fuel *)
  assert (r79' = r79) by (pose proof (letters_mono fuel (Nat.max fuel fuel0) _ _ _ (Nat.le_max_l _ _) E2) as M1; pose proof (letters_mono fuel0 (Nat.max fuel fuel0) _ _ _ (Nat.le_max_r _ _) P2) as M2; congruence). subst r79'. clear P2.
  destruct (letters_ok ck Hck q0 fuel st q0 R A ltac:(lia) i ltac:(lia)) as [(E' & _)|(st' & L & q' & R' & log' & E' & A' & I' & _)]; [congruence|].
  assert (r79 = (st', L)) by congruence. subst r79. clear E' E2. cbv beta iota in P3.
  apply bind_Ok_inv in P3. destruct P3 as (L1 & Q1 & P3). apply bind_Ok_inv in P3. destruct P3 as (k' & Q2 & P3). apply bind_Ok_inv in P3. destruct P3 as (t & Q3 & P3). injection P3 as F0 Ek Et Eu. subst k' t.
  cbn [seq foldM plus] in E3. apply bind_Ok_inv in E3. destruct E3 as (r1 & E3 & _). unfold fo_letter in E3. rewrite Q1 in E3. cbn [bind] in E3. rewrite Q2 in E3. cbn [bind] in E3. replace (i + 3) with (S (i + 2)) in E3 by lia. cbn [fo_walk] in E3. rewrite (proj2 (Nat.ltb_lt k (i + 1)) Hk) in E3. rewrite Q3 in E3. cbn [bind Nat.eqb] in E3.
  assert (ER : R' = []).
  { destruct (fr_front _ _ _ (ar_free _ _ _ _ _ A')) as [C|(C & _)]; auto. exfalso. rewrite F0 in C. apply (fr_in _ _ _ (ar_free _ _ _ _ _ A')) in C. destruct C as (_ & C). pose proof (proj1 (ar_0 _ _ _ _ _ A')). congruence. }
  subst R'. rewrite (insert_empty ck Hck st' q' log' k (i + 1) A' Hk) in E3; [discriminate|split; lia|].
  unfold chk. replace (i + 1 - 1) with i by lia. destruct (base_at st' k) as [b|]; auto.
Qed.

Definition w80 : list N := [32; 9; 14; 3; 13; 30; 2; 18; 22; 1; 19; 15; 22; 10; 10; 24; 23; 18; 32; 27; 22; 22; 28; 9; 10; 6; 25; 3; 17; 9; 24; 24; 17; 29; 19; 3; 14; 21; 8; 24; 8; 22; 20; 30; 11; 11; 5; 30; 4; 18; 14; 8; 3; 32; 32; 7; 31; 16; 11; 29; 18; 24; 7; 21; 27; 2; 15; 13; 20; 26; 7; 18; 23; 3; 7; 28; 14; 12; 6; 23]%N.
Lemma w80_bytes : nonzero_bytes w80.
Proof. unfold nonzero_bytes. apply Forall_forall. intros c I. assert (forallb (fun c => (0 <? c) && (c <? 256))%N w80 = true) as H by (vm_compute; reflexivity). rewrite forallb_forall in H. apply H in I. apply andb_true_iff in I. destruct I as (A & B). apply N.ltb_lt in A, B. auto. Qed.
Theorem w80_diverges : forall fuel, fo_build fuel w80 = Fuel.
Proof.
  apply (diverges w80 w80_bytes 79) with (fuel0 := 300) (k := 26).
  - apply Nat.ltb_lt. vm_compute. reflexivity.
  - apply Nat.ltb_lt. vm_compute. reflexivity.
  - vm_compute. reflexivity.
Qed.
