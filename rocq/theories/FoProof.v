(** The factor oracle: acceptance, bounds on what is accepted, termination and its failure. *)
From Coq Require Import List NArith ZArith Arith Bool Lia Permutation.
From Verif Require Import Base FoModel FoRing FoFree FoArray FoOracle.
Import ListNotations.
Local Open Scope nat_scope.

(** ** more fuel changes no result *)
Lemma find_loop_mono : forall f f' c0 ts st i r, f <= f' -> find_loop f c0 ts st i = Ok r -> find_loop f' c0 ts st i = Ok r.
Proof.
  induction f as [|f IH]; intros f' c0 ts st i r L E; [discriminate|]. destruct f' as [|f']; [lia|]. rewrite find_loop_unfold in *.
  apply bind_Ok_inv in E. destruct E as (us & E1 & E). rewrite E1. cbn [bind].
  destruct us; auto.
  apply bind_Ok_inv in E. destruct E as (n & E3 & E). rewrite E3. cbn [bind].
  apply bind_Ok_inv in E. destruct E as (n1 & E4 & E). rewrite E4. cbn [bind].
  apply bind_Ok_inv in E. destruct E as (st1 & E5 & E). rewrite E5. cbn [bind].
  apply bind_Ok_inv in E. destruct E as (n2 & E6 & E). rewrite E6. cbn [bind].
  apply bind_Ok_inv in E. destruct E as (n3 & E7 & E). rewrite E7. cbn [bind]. apply IH; auto. lia.
Qed.
Lemma find_base_mono : forall f f' st ts r, f <= f' -> find_base f st ts = Ok r -> find_base f' st ts = Ok r.
Proof.
  intros f f' st ts r L E. unfold find_base in *. apply bind_Ok_inv in E. destruct E as (t0 & E1 & E). rewrite E1. cbn [bind]. apply bind_Ok_inv in E. destruct E as (c0 & E2 & E). rewrite E2. cbn [bind]. eapply find_loop_mono; eauto.
Qed.
Lemma insert_mono : forall f f' st s n r, f <= f' -> insert_trans f st s n = Ok r -> insert_trans f' st s n = Ok r.
Proof.
  intros f f' st s n r L E. unfold insert_trans in *. apply bind_Ok_inv in E. destruct E as (c & E1 & E). rewrite E1. cbn [bind]. apply bind_Ok_inv in E. destruct E as (b & E2 & E). rewrite E2. cbn [bind]. destruct b as [b|].
  - apply bind_Ok_inv in E. destruct E as (u & E3 & E). rewrite E3. cbn [bind]. destruct u; auto. apply bind_Ok_inv in E. destruct E as (ts & E4 & E). rewrite E4. cbn [bind]. apply bind_Ok_inv in E. destruct E as (p & E5 & E). rewrite (find_base_mono f f' _ _ _ L E5). exact E.
  - apply bind_Ok_inv in E. destruct E as (p & E5 & E). rewrite (find_base_mono f f' _ _ _ L E5). exact E.
Qed.
Lemma walk_mono : forall steps f f' lrs st k n r, f <= f' -> fo_walk steps f lrs st k n = Ok r -> fo_walk steps f' lrs st k n = Ok r.
Proof.
  induction steps as [|steps IH]; intros f f' lrs st k n r L E; [discriminate|]. cbn [fo_walk] in *. destruct (k <? n); auto. apply bind_Ok_inv in E. destruct E as (t & E1 & E). rewrite E1. cbn [bind]. destruct (t =? 0); auto.
  apply bind_Ok_inv in E. destruct E as (st1 & E2 & E). rewrite (insert_mono f f' _ _ _ _ L E2). cbn [bind]. apply bind_Ok_inv in E. destruct E as (k1 & E3 & E). rewrite E3. cbn [bind]. eapply IH; eauto.
Qed.
Lemma letter_mono : forall f f' sl i r, f <= f' -> fo_letter f sl i = Ok r -> fo_letter f' sl i = Ok r.
Proof.
  intros f f' (st & lrs) i r L E. unfold fo_letter in *. apply bind_Ok_inv in E. destruct E as (l1 & E1 & E). rewrite E1. cbn [bind]. apply bind_Ok_inv in E. destruct E as (k & E2 & E). rewrite E2. cbn [bind]. apply bind_Ok_inv in E. destruct E as (p & E3 & E). rewrite (walk_mono _ f f' _ _ _ _ _ L E3). exact E.
Qed.
Lemma letters_mono : forall f f' l sl r, f <= f' -> foldM (fo_letter f) l sl = Ok r -> foldM (fo_letter f') l sl = Ok r.
Proof.
  intros f f'. induction l as [|i l IH]; intros sl r L E; auto. cbn [foldM] in *. apply bind_Ok_inv in E. destruct E as (s1 & E1 & E). rewrite (letter_mono f f' _ _ _ L E1). cbn [bind]. auto.
Qed.
Lemma build_mono : forall f f' text o, f <= f' -> fo_build f text = Ok o -> fo_build f' text = Ok o.
Proof.
  intros f f' text o L E. unfold fo_build in *. apply bind_Ok_inv in E. destruct E as (s1 & E1 & E). rewrite E1. cbn [bind]. apply bind_Ok_inv in E. destruct E as (s2 & E2 & E). rewrite E2. cbn [bind]. apply bind_Ok_inv in E. destruct E as (r & E3 & E). rewrite (letters_mono f f' _ _ _ L E3). exact E.
Qed.

(** ** the claims *)
Definition nonzero_bytes (s : list N) : Prop := Forall (fun c => (0 < c < 256)%N) s.
Lemma nonzero_nth : forall s, nonzero_bytes s -> forall i, i < length s -> (0 < nth i s 0 < 256)%N.
Proof. intros s H i Hi. unfold nonzero_bytes in H. rewrite Forall_forall in H. apply H. now apply nth_In. Qed.
Lemma build_empty : forall fuel, fo_build fuel [] = UB.
Proof. reflexivity. Qed.
Lemma build_Built : forall fuel text o, nonzero_bytes text -> fo_build fuel text = Ok o -> exists log lrs, Built text o log lrs.
Proof.
  intros fuel text o Hb E. destruct text as [|c text]; [rewrite build_empty in E; discriminate|]. destruct (build_ok (c :: text) (nonzero_nth _ Hb) fuel ltac:(cbn [length]; lia)) as (q0 & _ & [(E' & _)|(o' & log & lrs & E' & B)]); [congruence|]. assert (o' = o) by congruence. subst. eauto.
Qed.
Lemma factor_path : forall text o log lrs, nonzero_bytes text -> Built text o log lrs -> forall a w b, text = a ++ w ++ b -> exists u, path text log 0 w u.
Proof.
  intros text o log lrs Hb B a w b E. destruct (suffix_path text (nonzero_nth _ Hb) o log lrs B (length a + length w) (length a)) as (u & P & _); [rewrite E, !app_length; lia|]. exists u.
  assert (Ew : firstn (length a + length w - length a) (skipn (length a) text) = w).
  { replace (length a + length w - length a) with (length w) by lia. rewrite E, skipn_app, skipn_all2, Nat.sub_diag by lia. cbn [app skipn]. rewrite firstn_app, firstn_all, Nat.sub_diag. cbn [firstn]. apply app_nil_r. }
  rewrite Ew in P. exact P.
Qed.
Lemma accepts_factors : forall fuel text o a w b, nonzero_bytes text -> text = a ++ w ++ b -> fo_build fuel text = Ok o -> fo_accept [] o w = Ok true.
Proof.
  intros fuel text o a w b Hb E Eb. destruct (build_Built fuel text o Hb Eb) as (log & lrs & B). destruct (factor_path text o log lrs Hb B a w b E) as (u & P). eapply accept_path; eauto. now apply nonzero_nth.
Qed.
Lemma accepts_short : forall fuel text o w, nonzero_bytes text -> Forall (fun c => (c < 256)%N) w -> fo_build fuel text = Ok o -> fo_accept [] o w = Ok true -> length w <= length text /\ (length w = length text -> w = text).
Proof.
  intros fuel text o w Hb Hw Eb Ea. destruct (build_Built fuel text o Hb Eb) as (log & lrs & B). rewrite Forall_forall in Hw. destruct (path_accept text (nonzero_nth _ Hb) o log lrs B w 0 ltac:(lia) Hw Ea) as (u & P).
  pose proof (path_length text (nonzero_nth _ Hb) o log lrs B _ _ _ P). pose proof (path_end text (nonzero_nth _ Hb) o log lrs B _ _ _ P ltac:(lia)). split; [lia|]. intros El. exact (path_full text (nonzero_nth _ Hb) o log lrs B _ _ _ P El).
Qed.
(** a step when a byte other than those read is behind the array *)
Lemma image_any : forall text o log lrs, nonzero_bytes text -> Built text o log lrs -> forall z beyond s c, s <= length text -> (c < 256)%N -> z <> c ->
  exists r, fo_image (z :: beyond) o s c = Ok r /\ forall t, r = Some t <-> D text log s t /\ chk text t = c.
Proof.
  intros text o log lrs Hb B z beyond s c Hs Hc Hz. destruct (Nat.eq_dec s (length text)) as [->|Ns].
  - exists None. split; [apply (image_last text (nonzero_nth _ Hb) o log lrs B (z :: beyond) z c); [reflexivity|now apply N.eqb_neq]|]. intros t. split; [discriminate|]. intros (Dt & _). pose proof (D_lt text (nonzero_nth _ Hb) o log lrs B _ _ Dt). lia.
  - apply (image_ok text (nonzero_nth _ Hb) o log lrs B); auto. lia.
Qed.
Lemma accepts_padded : forall fuel text o z w, nonzero_bytes text -> Forall (fun c => (c < 256)%N) w -> ~ In z w -> fo_build fuel text = Ok o ->
  exists r, fo_accept [z] o w = Ok r /\ (r = true -> length w <= length text /\ (length w = length text -> w = text)).
Proof.
  intros fuel text o z w Hb Hw Hz Eb. destruct (build_Built fuel text o Hb Eb) as (log & lrs & B). rewrite Forall_forall in Hw.
  assert (G : forall w s, s <= length text -> (forall c, In c w -> (c < 256)%N) -> ~ In z w -> exists r, fo_accept_from [z] o s w = Ok r /\ (r = true -> exists u, path text log s w u)).
  { clear w Hw Hz. induction w as [|c w IH]; intros s Hs Hw Hz; [exists true; split; auto; intros _; exists s; constructor|]. cbn [fo_accept_from].
    destruct (image_any text o log lrs Hb B z [] s c Hs) as (r & Er & Hr); [apply Hw; now left|intros ->; apply Hz; now left|]. rewrite Er. cbn [bind]. destruct r as [t|]; [|exists false; split; [auto|discriminate]]. destruct (proj1 (Hr t) eq_refl) as (Dt & Et). pose proof (D_lt text (nonzero_nth _ Hb) o log lrs B _ _ Dt).
    destruct (IH t) as (r & E2 & P2); [lia|intros; apply Hw; now right|intros C; apply Hz; now right|]. exists r. split; auto. intros C. destruct (P2 C) as (u & P). exists u. econstructor; eauto. }
  destruct (G w 0 ltac:(lia) Hw Hz) as (r & Er & Hr). exists r. split; auto. intros C. destruct (Hr C) as (u & P).
  pose proof (path_length text (nonzero_nth _ Hb) o log lrs B _ _ _ P). pose proof (path_end text (nonzero_nth _ Hb) o log lrs B _ _ _ P ltac:(lia)). split; [lia|]. intros El. exact (path_full text (nonzero_nth _ Hb) o log lrs B _ _ _ P El).
Qed.
(** the last state is entered only with the last character of the text *)
Lemma accepts_inside : forall fuel text o w, nonzero_bytes text -> Forall (fun c => (c < 256)%N) w -> ~ In (last text 0%N) (removelast w) -> fo_build fuel text = Ok o -> exists r, fo_accept [] o w = Ok r.
Proof.
  intros fuel text o w Hb Hw Hl Eb. assert (Ht : text <> []) by (intros ->; rewrite build_empty in Eb; discriminate). destruct (build_Built fuel text o Hb Eb) as (log & lrs & B). rewrite Forall_forall in Hw.
  assert (El : chk text (length text) = last text 0%N) by (unfold chk; clear - Ht; induction text as [|a l IH]; [congruence|]; destruct l as [|b l]; [reflexivity|]; cbn [length last] in *; replace (S (S (length l)) - 1) with (S (S (length l) - 1)) by lia; cbn [nth]; apply IH; discriminate).
  assert (G : forall w s, s < length text -> (forall c, In c w -> (c < 256)%N) -> ~ In (last text 0%N) (removelast w) -> exists r, fo_accept_from [] o s w = Ok r).
  { clear w Hw Hl. induction w as [|c w IH]; intros s Hs Hw Hl; [exists true; reflexivity|]. cbn [fo_accept_from]. destruct (image_ok text (nonzero_nth _ Hb) o log lrs B [] s c Hs) as (r & Er & Hr); [apply Hw; now left|]. rewrite Er. cbn [bind]. destruct r as [t|]; [|exists false; reflexivity]. destruct (proj1 (Hr t) eq_refl) as (Dt & Et). pose proof (D_lt text (nonzero_nth _ Hb) o log lrs B _ _ Dt).
    destruct w as [|d w]; [exists true; reflexivity|]. apply IH; [|intros; apply Hw; now right|intros C; apply Hl; simpl in *; tauto]. assert (t <> length text); [|lia]. intros ->. apply Hl. rewrite <- El, Et. simpl. auto. }
  apply (G w 0); auto. destruct text; [congruence|cbn [length]; lia].
Qed.
Definition letters (text : list N) : nat := length (nodup N.eq_dec text).
Lemma build_terminates : forall text, text <> [] -> nonzero_bytes text -> (length text - 2) * (letters text - 1) + 2 <= 256 * ((length text + 255) / 256) -> exists n o, forall fuel, n <= fuel -> fo_build fuel text = Ok o.
Proof.
  intros text Ht Hb Hc. set (m := length text) in *. assert (Hm : 1 <= m) by (unfold m; destruct text; [congruence|cbn [length]; lia]). set (n := 256 * (m + m) + 1).
  destruct (build_ok text (nonzero_nth _ Hb) n Hm) as (q0 & Hq & [(E & St)|(o & log & lrs & E & B)]).
  - exfalso. fold m in Hq. assert (Eq : (m + 255) / 256 = q0) by (symmetry; apply (Nat.div_unique _ 256 q0 (m + 255 - 256 * q0)); lia). rewrite Eq in Hc.
    apply (not_stuck text (nonzero_nth _ Hb) q0 n); auto; fold m; try lia.
  - exists n, o. intros fuel Hf. eapply build_mono; eauto.
Qed.
Lemma two_letters : forall text x y, text <> [] -> nonzero_bytes text -> (forall c, In c text -> c = x \/ c = y) -> exists n o, forall fuel, n <= fuel -> fo_build fuel text = Ok o.
Proof.
  intros text x y Ht Hb Hc. apply build_terminates; auto. assert (letters text <= 2).
  { unfold letters. change 2 with (length [x; y]). apply NoDup_incl_length; [apply NoDup_nodup|]. intros c I. apply nodup_In in I. destruct (Hc c I); subst; simpl; auto. }
  assert (Hm : 1 <= length text) by (destruct text; [congruence|cbn [length]; lia]). set (m := length text) in *. assert (m <= 256 * ((m + 255) / 256)). { pose proof (Nat.div_mod (m + 255) 256 ltac:(discriminate)). pose proof (Nat.mod_upper_bound (m + 255) 256 ltac:(discriminate)). lia. }
  assert ((m - 2) * (letters text - 1) <= m - 2) by (transitivity ((m - 2) * 1); [apply Nat.mul_le_mono_l; lia|lia]).
  destruct (Nat.eq_dec m 1) as [E|]; [|lia]. rewrite E in *. cbn. lia.
Qed.
