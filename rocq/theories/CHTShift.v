(** Inserting one entry into the circular table: the new flags and homes keep the invariant of CHTRing.v *)
From Coq Require Import ZArith Lia Bool List.
From Verif Require Import CHTRing.
Local Open Scope Z_scope.

Section Insert.
Variables (B : Z) (U O C S : Z -> bool) (H : Z -> Z).
Hypothesis R : ring B U O C S H.
Variables (b p j : Z).
Hypothesis Sp : is_spot U O C H b p.
Hypothesis Hj : p <= j < b + B.
Hypothesis Fj : U j = false.
Hypothesis Full : forall y, p <= y -> y < j -> U y = true.

Definition rr (z : Z) : Z := (z - p) mod B.
Definition mm (z : Z) : Z := (z - p) / B.
Definition ins_H (z : Z) : Z := if rr z =? 0 then b + mm z * B else if rr z <=? j - p then H (z - 1) else H z.
Definition ins_O (z : Z) : bool := O z || ((z - b) mod B =? 0).
Definition ins_S (z : Z) : bool := if rr z =? 0 then negb (p =? b) else if rr z <=? j - p then true else S z.
Definition ins_C (z : Z) : bool := if rr z =? 0 then O b else if rr z <=? j - p then C (z - 1) else C z.
Definition ins_U (z : Z) : bool := U z || ((z - j) mod B =? 0).
Definition ins_X {A} (x : A) (X : Z -> A) (z : Z) : A := if rr z =? 0 then x else if rr z <=? j - p then X (z - 1) else X z.

Let HB : 1 <= B := r_B _ _ _ _ _ _ R.

Lemma mod_per : forall a m, (a + m * B) mod B = a mod B.
Proof. intros. apply Z.mod_add. lia. Qed.
Lemma rr_per : forall z m, rr (z + m * B) = rr z.
Proof. intros. unfold rr. replace (z + m * B - p) with (z - p + m * B) by lia. apply mod_per. Qed.
Lemma mm_per : forall z m, mm (z + m * B) = mm z + m.
Proof. intros. unfold mm. replace (z + m * B - p) with (z - p + m * B) by lia. apply Z.div_add. lia. Qed.
Lemma ins_perO : forall z m, ins_O (z + m * B) = ins_O z.
Proof. intros. unfold ins_O. rewrite (r_perO _ _ _ _ _ _ R). replace (z + m * B - b) with (z - b + m * B) by lia. now rewrite mod_per. Qed.
Lemma ins_perU : forall z m, ins_U (z + m * B) = ins_U z.
Proof. intros. unfold ins_U. rewrite (perU _ _ _ _ _ _ R). replace (z + m * B - j) with (z - j + m * B) by lia. now rewrite mod_per. Qed.
Lemma ins_perS : forall z m, ins_S (z + m * B) = ins_S z.
Proof. intros. unfold ins_S. rewrite rr_per. now rewrite (r_perS _ _ _ _ _ _ R). Qed.
Lemma ins_perC : forall z m, ins_C (z + m * B) = ins_C z.
Proof.
  intros. unfold ins_C. rewrite rr_per. rewrite (r_perC _ _ _ _ _ _ R). replace (z + m * B - 1) with (z - 1 + m * B) by lia. now rewrite (r_perC _ _ _ _ _ _ R).
Qed.
Lemma ins_perH : forall z m, ins_H (z + m * B) = ins_H z + m * B.
Proof.
  intros. unfold ins_H. rewrite rr_per, mm_per. rewrite (r_perH _ _ _ _ _ _ R). replace (z + m * B - 1) with (z - 1 + m * B) by lia. rewrite (r_perH _ _ _ _ _ _ R).
  destruct (rr z =? 0); [lia|]. destruct (rr z <=? j - p); lia.
Qed.
Lemma ins_perX : forall A x (X : Z -> A) z m, (forall z m, X (z + m * B) = X z) -> ins_X x X (z + m * B) = ins_X x X z.
Proof. intros. unfold ins_X. rewrite rr_per. replace (z + m * B - 1) with (z - 1 + m * B) by lia. now rewrite !H0. Qed.

(** the window [p, p + B) *)
Lemma rr_win : forall z, p <= z < p + B -> rr z = z - p.
Proof. intros z Hz. unfold rr. apply Z.mod_small. lia. Qed.
Lemma mm_win : forall z, p <= z < p + B -> mm z = 0.
Proof. intros z Hz. unfold mm. apply Z.div_small. lia. Qed.
Lemma jw : p <= j < p + B.
Proof. destruct Sp. lia. Qed.
Lemma U_win : forall z, p <= z < p + B -> ins_U z = U z || (z =? j).
Proof.
  intros z Hz. unfold ins_U. f_equal. pose proof jw. destruct (Z.eqb_spec z j) as [->|N].
  - replace (j - j) with 0 by lia. now rewrite Z.mod_0_l by lia.
  - apply Z.eqb_neq. destruct (Z_lt_le_dec z j).
    + replace (z - j) with (z - j + B + (-1) * B) by lia. rewrite mod_per. rewrite Z.mod_small by lia. lia.
    + rewrite Z.mod_small by lia. lia.
Qed.
Lemma at_p_H : ins_H p = b.
Proof. unfold ins_H. rewrite rr_win, mm_win by lia. replace (p - p =? 0) with true by (symmetry; apply Z.eqb_eq; lia). lia. Qed.
Lemma mid_H : forall z, p < z <= j -> ins_H z = H (z - 1).
Proof. intros z Hz. pose proof jw. unfold ins_H. rewrite rr_win by lia. rewrite (proj2 (Z.eqb_neq _ _)), (proj2 (Z.leb_le _ _)) by lia. reflexivity. Qed.
Lemma out_H : forall z, j < z < p + B -> ins_H z = H z.
Proof. intros z Hz. unfold ins_H. rewrite rr_win by lia. rewrite (proj2 (Z.eqb_neq _ _)) by lia. rewrite (proj2 (Z.leb_gt _ _)) by lia. reflexivity. Qed.
Lemma at_p_S : ins_S p = negb (p =? b).
Proof. unfold ins_S. rewrite rr_win by lia. now replace (p - p =? 0) with true by (symmetry; apply Z.eqb_eq; lia). Qed.
Lemma mid_S : forall z, p < z <= j -> ins_S z = true.
Proof. intros z Hz. pose proof jw. unfold ins_S. rewrite rr_win by lia. rewrite (proj2 (Z.eqb_neq _ _)), (proj2 (Z.leb_le _ _)) by lia. reflexivity. Qed.
Lemma out_S : forall z, j < z < p + B -> ins_S z = S z.
Proof. intros z Hz. unfold ins_S. rewrite rr_win by lia. rewrite (proj2 (Z.eqb_neq _ _)) by lia. rewrite (proj2 (Z.leb_gt _ _)) by lia. reflexivity. Qed.
Lemma at_p_C : ins_C p = O b.
Proof. unfold ins_C. rewrite rr_win by lia. now replace (p - p =? 0) with true by (symmetry; apply Z.eqb_eq; lia). Qed.
Lemma mid_C : forall z, p < z <= j -> ins_C z = C (z - 1).
Proof. intros z Hz. pose proof jw. unfold ins_C. rewrite rr_win by lia. rewrite (proj2 (Z.eqb_neq _ _)), (proj2 (Z.leb_le _ _)) by lia. reflexivity. Qed.
Lemma out_C : forall z, j < z < p + B -> ins_C z = C z.
Proof. intros z Hz. unfold ins_C. rewrite rr_win by lia. rewrite (proj2 (Z.eqb_neq _ _)) by lia. rewrite (proj2 (Z.leb_gt _ _)) by lia. reflexivity. Qed.
Lemma at_p_X : forall A (x : A) X, ins_X x X p = x.
Proof. intros. unfold ins_X. rewrite rr_win by lia. now replace (p - p =? 0) with true by (symmetry; apply Z.eqb_eq; lia). Qed.
Lemma mid_X : forall A (x : A) X z, p < z <= j -> ins_X x X z = X (z - 1).
Proof. intros A x X z Hz. pose proof jw. unfold ins_X. rewrite rr_win by lia. rewrite (proj2 (Z.eqb_neq _ _)), (proj2 (Z.leb_le _ _)) by lia. reflexivity. Qed.
Lemma out_X : forall A (x : A) X z, j < z < p + B -> ins_X x X z = X z.
Proof. intros A x X z Hz. unfold ins_X. rewrite rr_win by lia. rewrite (proj2 (Z.eqb_neq _ _)) by lia. rewrite (proj2 (Z.leb_gt _ _)) by lia. reflexivity. Qed.
Lemma used_mid : forall z, p <= z <= j -> ins_U z = true.
Proof.
  intros z Hz. pose proof jw. rewrite U_win by lia. destruct (Z.eqb_spec z j); [apply orb_true_r|]. rewrite Full by lia. reflexivity.
Qed.
Lemma used_out : forall z, j < z < p + B -> ins_U z = U z.
Proof. intros z Hz. pose proof jw. rewrite U_win by lia. rewrite (proj2 (Z.eqb_neq _ _)) by lia. apply orb_false_r. Qed.
Lemma used_keep : forall z, U z = true -> ins_U z = true.
Proof. intros z Hz. unfold ins_U. now rewrite Hz. Qed.
Lemma window : forall z, exists z0 m, z = z0 + m * B /\ p <= z0 < p + B.
Proof.
  intros z. exists (p + rr z), (mm z). unfold rr, mm. pose proof (Z.div_mod (z - p) B ltac:(lia)). pose proof (Z.mod_pos_bound (z - p) B ltac:(lia)). lia.
Qed.
Lemma after_gap : forall z, j < z -> U z = true -> j < H z.
Proof.
  intros z Hz Uz. destruct (r_le _ _ _ _ _ _ R z Uz) as (_ & I). destruct (Z_lt_le_dec j (H z)); auto. rewrite I in Fj by lia. discriminate.
Qed.
Lemma before_p : U (p - 1) = true -> H (p - 1) <= b.
Proof.
  intros Up. destruct Sp as (Hbp & Hb & _). destruct (Z.eq_dec p b) as [E|].
  - destruct (r_le _ _ _ _ _ _ R _ Up). lia.
  - destruct (Hb (p - 1)); lia.
Qed.
Lemma prev_p : ins_U (p - 1) = true -> j < p + B - 1 -> U (p - 1) = true /\ ins_H (p - 1) = H (p - 1).
Proof.
  intros Up Hj'. pose proof jw. replace (p - 1) with (p + B - 1 + (-1) * B) in Up |- * by lia. rewrite ins_perU in Up. rewrite ins_perH, (perU _ _ _ _ _ _ R), (r_perH _ _ _ _ _ _ R).
  rewrite used_out in Up by lia. rewrite out_H by lia. auto.
Qed.
Lemma prev_p_full : j = p + B - 1 -> ins_H (p - 1) < b.
Proof.
  intros E. assert (p = b) by (destruct Sp; lia). replace (p - 1) with (j + (-1) * B) by lia. rewrite ins_perH.
  destruct (Z.eq_dec j p) as [Ej|]; [rewrite Ej, at_p_H; lia|]. rewrite mid_H by lia.
  destruct (r_le _ _ _ _ _ _ R (j - 1)); [apply Full; lia|]. lia.
Qed.

Lemma insU_eq : forall z, ins_U z = ins_O z || ins_C z || ins_S z.
Proof.
  intros z. destruct (window z) as (z0 & m & -> & Hz). rewrite ins_perU, ins_perO, ins_perC, ins_perS. pose proof jw as JW.
  destruct (Z.eq_dec z0 p) as [->|Np].
  - rewrite used_mid, at_p_S by lia. destruct (Z.eqb_spec p b) as [->|].
    + unfold ins_O. replace (b - b) with 0 by lia. rewrite Z.mod_0_l by lia. now rewrite orb_true_r.
    + now rewrite !orb_true_r.
  - destruct (Z_le_gt_dec z0 j).
    + rewrite used_mid, mid_S by lia. now rewrite !orb_true_r.
    + rewrite used_out, out_C, out_S by lia. unfold ins_O. destruct ((z0 - b) mod B =? 0) eqn:E.
      * rewrite orb_true_r. simpl. destruct Sp as (Hbp & Hb & _). apply Z.eqb_eq in E.
        assert (z0 = b + B).
        { pose proof (Z.div_mod (z0 - b) B ltac:(lia)) as D. rewrite E in D.
          assert (0 < (z0 - b) / B) by (apply Z.nle_gt; intros Q; nia). assert ((z0 - b) / B < 2) by (apply Z.nle_gt; intros Q; nia). nia. }
        subst z0. replace (b + B) with (b + 1 * B) by lia. rewrite (perU _ _ _ _ _ _ R). apply Hb; lia.
      * rewrite orb_false_r. apply (r_U _ _ _ _ _ _ R).
Qed.

(** how the entries move *)
Definition moved (z : Z) : Z := if rr z <? j - p then z + 1 else z.
Lemma moved_per : forall z m, moved (z + m * B) = moved z + m * B.
Proof. intros. unfold moved. rewrite rr_per. destruct (rr z <? j - p); lia. Qed.
Lemma moved_ok : forall z, U z = true -> ins_U (moved z) = true /\ ins_H (moved z) = H z.
Proof.
  intros z Uz. destruct (window z) as (z0 & m & -> & Hz). rewrite moved_per, ins_perU, ins_perH, (r_perH _ _ _ _ _ _ R). rewrite (perU _ _ _ _ _ _ R) in Uz.
  unfold moved. rewrite rr_win by lia. pose proof jw. destruct (Z.ltb_spec (z0 - p) (j - p)).
  - rewrite used_mid, mid_H by lia. split; auto. do 2 f_equal; lia.
  - assert (z0 <> j) by congruence. rewrite used_out, out_H by lia. auto.
Qed.
Lemma moved_X : forall A (x : A) X z, (forall z m, X (z + m * B) = X z) -> U z = true -> ins_X x X (moved z) = X z.
Proof.
  intros A x X z PX Uz. destruct (window z) as (z0 & m & -> & Hz). rewrite moved_per, ins_perX, PX by auto. rewrite (perU _ _ _ _ _ _ R) in Uz.
  unfold moved. rewrite rr_win by lia. pose proof jw. destruct (Z.ltb_spec (z0 - p) (j - p)).
  - rewrite mid_X by lia. f_equal. lia.
  - assert (z0 <> j) by congruence. now rewrite out_X by lia.
Qed.
Lemma from_moved : forall z, ins_U z = true -> (exists m, z = p + m * B) \/ (exists y, U y = true /\ z = moved y).
Proof.
  intros z Uz. destruct (window z) as (z0 & m & -> & Hz). rewrite ins_perU in Uz. pose proof jw. destruct (Z.eq_dec z0 p) as [->|]; [left; eauto|]. right.
  destruct (Z_le_gt_dec z0 j).
  - exists (z0 - 1 + m * B). rewrite (perU _ _ _ _ _ _ R), moved_per. split; [apply Full; lia|]. f_equal. unfold moved. rewrite rr_win by lia.
    rewrite (proj2 (Z.ltb_lt _ _)) by lia. lia.
  - exists (z0 + m * B). rewrite (perU _ _ _ _ _ _ R), moved_per. split; [now rewrite used_out in Uz by lia|]. f_equal. unfold moved. rewrite rr_win by lia.
    rewrite (proj2 (Z.ltb_ge _ _)) by lia. lia.
Qed.
Lemma ins_entries : forall A (x : A) X h y, (forall z m, X (z + m * B) = X z) ->
  ((exists z, ins_U z = true /\ ins_H z = h /\ ins_X x X z = y) <-> (exists z, U z = true /\ H z = h /\ X z = y) \/ (exists m, h = b + m * B) /\ y = x).
Proof.
  intros A x X h y PX. split.
  - intros (z & Uz & Hz & Xz). destruct (from_moved z Uz) as [(m & ->)|(w & Uw & ->)].
    + right. rewrite ins_perH, at_p_H in Hz. rewrite ins_perX, at_p_X in Xz by auto. split; [exists m|]; auto.
    + left. exists w. destruct (moved_ok w Uw) as (_ & E). rewrite moved_X in Xz by auto. split; auto. split; auto. congruence.
  - intros [(z & Uz & Hz & Xz)|((m & ->) & ->)].
    + exists (moved z). destruct (moved_ok z Uz) as (E1 & E2). rewrite moved_X by auto. split; auto. split; auto. congruence.
    + exists (p + m * B). rewrite ins_perU, ins_perH, at_p_H, ins_perX, at_p_X by auto. rewrite used_mid by lia. auto.
Qed.
Lemma ins_distinct : forall A K (key : A -> K) (x : A) X, (forall z m, X (z + m * B) = X z) ->
  (forall z y, U z = true -> U y = true -> H z = H y -> key (X z) = key (X y) -> z = y) ->
  (forall z, U z = true -> H z = b -> key (X z) <> key x) ->
  forall z y, ins_U z = true -> ins_U y = true -> ins_H z = ins_H y -> key (ins_X x X z) = key (ins_X x X y) -> z = y.
Proof.
  intros A K key x X PX D Fr z y Uz Uy EH EX.
  assert (Fr' : forall m w, U w = true -> H w = b + m * B -> key (X w) <> key x).
  { intros m w Uw Hw. rewrite <- (PX w (- m)). apply Fr; [now rewrite (perU _ _ _ _ _ _ R)|]. rewrite (r_perH _ _ _ _ _ _ R). lia. }
  destruct (from_moved z Uz) as [(m & ->)|(w & Uw & ->)]; destruct (from_moved y Uy) as [(n & ->)|(v & Uv & ->)].
  - rewrite !ins_perH in EH. assert (m = n) by nia. congruence.
  - exfalso. rewrite ins_perH, at_p_H in EH. destruct (moved_ok v Uv) as (_ & Ev). rewrite Ev in EH. rewrite ins_perX, at_p_X, moved_X in EX by auto. apply (Fr' m v); auto.
  - exfalso. rewrite ins_perH, at_p_H in EH. destruct (moved_ok w Uw) as (_ & Ew). rewrite Ew in EH. rewrite ins_perX, at_p_X, moved_X in EX by auto. apply (Fr' n w); auto.
  - destruct (moved_ok w Uw) as (_ & Ew). destruct (moved_ok v Uv) as (_ & Ev). rewrite !moved_X in EX by auto. f_equal. apply D; auto. congruence.
Qed.

Theorem insert_ring : ring B ins_U ins_O ins_C ins_S ins_H.
Proof.
  pose proof jw as JW. destruct Sp as (Hbp & Hb & HpU & HpC & HpO).
  constructor.
  - auto.
  - apply insU_eq.
  - apply ins_perO.
  - apply ins_perC.
  - apply ins_perS.
  - apply ins_perH.
  - intros z Uz. destruct (window z) as (z0 & m & -> & Hz). rewrite ins_perU in Uz. rewrite ins_perH.
    assert (G : ins_H z0 <= z0 /\ forall y, ins_H z0 <= y -> y <= z0 -> ins_U y = true).
    { destruct (Z.eq_dec z0 p) as [->|].
      - rewrite at_p_H. split; [lia|]. intros y Y1 Y2. destruct (Z.eq_dec y p) as [->|]; [now apply used_mid; lia|]. apply used_keep, Hb; lia.
      - destruct (Z_le_gt_dec z0 j).
        + rewrite mid_H by lia. destruct (r_le _ _ _ _ _ _ R (z0 - 1)) as (L & I); [apply Full; lia|]. split; [lia|]. intros y Y1 Y2.
          destruct (Z.eq_dec y z0) as [->|]; [now apply used_mid; lia|]. apply used_keep, I; lia.
        + rewrite out_H by lia. rewrite used_out in Uz by lia. destruct (r_le _ _ _ _ _ _ R z0 Uz) as (L & I). split; auto. intros y Y1 Y2. apply used_keep, I; lia. }
    destruct G as (G1 & G2). split; [lia|]. intros y Y1 Y2. rewrite <- (ins_perU y (- m)). apply G2; lia.
  - intros z Uz Uz1. destruct (window z) as (z0 & m & -> & Hz). replace (z0 + m * B + 1) with (z0 + 1 + m * B) in Uz1 |- * by lia. rewrite ins_perU in Uz, Uz1. rewrite !ins_perH.
    apply Zplus_le_compat_r. destruct (Z.eq_dec z0 (p + B - 1)) as [->|].
    + replace (p + B - 1 + 1) with (p + 1 * B) by lia. rewrite ins_perH, at_p_H. destruct (Z.eq_dec j (p + B - 1)) as [E|].
      * pose proof (prev_p_full E) as Q. replace (p - 1) with (p + B - 1 + (-1) * B) in Q by lia. rewrite ins_perH in Q. lia.
      * rewrite out_H by lia. rewrite used_out in Uz by lia. replace (p + B - 1) with (p - 1 + 1 * B) in Uz |- * by lia. rewrite (perU _ _ _ _ _ _ R) in Uz.
        rewrite (r_perH _ _ _ _ _ _ R). pose proof (before_p Uz). lia.
    + destruct (Z.eq_dec z0 p) as [->|].
      * rewrite at_p_H. destruct (Z.eq_dec p j) as [E|].
        -- rewrite out_H by lia. rewrite used_out in Uz1 by lia. pose proof (after_gap (p + 1) ltac:(lia) Uz1). lia.
        -- rewrite mid_H by lia. replace (p + 1 - 1) with p by lia. assert (U p = true) by (apply Full; lia). specialize (HpU H0). lia.
      * destruct (Z_lt_le_dec z0 j).
        -- rewrite !mid_H by lia. replace (z0 + 1 - 1) with (z0 - 1 + 1) by lia. apply (r_adj _ _ _ _ _ _ R); apply Full; lia.
        -- destruct (Z.eq_dec z0 j) as [->|].
           ++ rewrite mid_H, out_H by lia. rewrite used_out in Uz1 by lia. pose proof (after_gap (j + 1) ltac:(lia) Uz1).
              destruct (r_le _ _ _ _ _ _ R (j - 1)); [apply Full; lia|]. lia.
           ++ rewrite !out_H by lia. rewrite used_out in Uz, Uz1 by lia. now apply (r_adj _ _ _ _ _ _ R).
  - intros z. destruct (window z) as (z0 & m & -> & Hz). rewrite ins_perS, ins_perU, ins_perH.
    assert (G : ins_S z0 = true <-> ins_U z0 = true /\ ins_H z0 < z0).
    { destruct (Z.eq_dec z0 p) as [->|].
      - rewrite at_p_S, at_p_H, used_mid by lia. destruct (Z.eqb_spec p b); simpl; split; intros; try lia; try discriminate; auto; try (split; auto; lia).
      - destruct (Z_le_gt_dec z0 j).
        + rewrite mid_S, mid_H, used_mid by lia. destruct (r_le _ _ _ _ _ _ R (z0 - 1)) as (L & _); [apply Full; lia|]. split; auto. intros _. split; auto; lia.
        + rewrite out_S, out_H, used_out by lia. apply (r_S _ _ _ _ _ _ R). }
    rewrite G. split; intros (G1 & G2); split; auto; lia.
  - intros z. destruct (window z) as (z0 & m & -> & Hz). replace (z0 + m * B - 1) with (z0 - 1 + m * B) by lia. rewrite ins_perC, !ins_perU, !ins_perH.
    assert (G : ins_C z0 = true <-> ins_U z0 = true /\ ins_U (z0 - 1) = true /\ ins_H (z0 - 1) = ins_H z0).
    { destruct (Z.eq_dec z0 p) as [->|].
      - rewrite at_p_C, at_p_H, used_mid by lia. destruct (O b) eqn:Ob.
        + split; auto. intros _. split; auto. destruct HpO as (P1 & P2). assert (Up : U (p - 1) = true) by (apply Hb; lia).
          pose proof (used_keep _ Up) as Up'. split; auto. destruct (prev_p Up' ltac:(lia)) as (_ & E). congruence.
        + split; [discriminate|]. intros (_ & Up & E). exfalso. destruct (Z.eq_dec j (p + B - 1)) as [Ej|].
          * pose proof (prev_p_full Ej). lia.
          * destruct (prev_p Up ltac:(lia)) as (U1 & E1). pose proof (home_occ _ _ _ _ _ _ R _ U1). congruence.
      - destruct (Z_le_gt_dec z0 j).
        + rewrite mid_C, (mid_H z0), !used_mid by lia. destruct (Z.eq_dec z0 (p + 1)) as [->|].
          * replace (p + 1 - 1) with p by lia. rewrite at_p_H, HpC. split; [discriminate|]. intros (_ & _ & E). exfalso.
            assert (Up : U p = true) by (apply Full; lia). specialize (HpU Up). lia.
          * rewrite mid_H by lia. rewrite (r_C _ _ _ _ _ _ R). rewrite !Full by lia. split; intros (_ & _ & E); auto.
        + rewrite out_C, (out_H z0), (used_out z0) by lia. destruct (Z.eq_dec z0 (j + 1)) as [->|].
          * replace (j + 1 - 1) with j by lia. rewrite used_mid by lia. rewrite (r_C _ _ _ _ _ _ R). replace (j + 1 - 1) with j by lia. split.
            { intros (_ & E & _). congruence. }
            { intros (U1 & _ & E). exfalso. pose proof (after_gap (j + 1) ltac:(lia) U1). destruct (Z.eq_dec j p) as [E1|].
              - rewrite E1, at_p_H in E. rewrite E1 in *. lia.
              - rewrite mid_H in E by lia. destruct (r_le _ _ _ _ _ _ R (j - 1)); [apply Full; lia|]. lia. }
          * rewrite used_out, out_H by lia. apply (r_C _ _ _ _ _ _ R). }
    rewrite G. split; intros (G1 & G2 & G3); split; auto; split; auto; lia.
  - intros h. pose proof (ins_entries unit tt (fun _ => tt) h tt ltac:(auto)) as E.
    transitivity (exists z, ins_U z = true /\ ins_H z = h /\ ins_X tt (fun _ => tt) z = tt).
    2:{ split; intros (z & Z1 & Z2); exists z; [tauto|]. split; auto. split; auto. now destruct (ins_X _ _ _). }
    rewrite E. unfold ins_O. rewrite orb_true_iff, (r_O _ _ _ _ _ _ R). split.
    + intros [(z & Z1 & Z2)|Q]; [left; eauto|]. right. split; auto. exists ((h - b) / B). apply Z.eqb_eq in Q. pose proof (Z.div_mod (h - b) B ltac:(lia)). lia.
    + intros [(z & Z1 & Z2 & _)|((m & ->) & _)]; [left; eauto|]. right. apply Z.eqb_eq. replace (b + m * B - b) with (0 + m * B) by lia. rewrite mod_per. apply Z.mod_0_l. lia.
  - exists (j + 1). destruct (Z.eq_dec j (p + B - 1)) as [E|].
    + replace (j + 1) with (p + 1 * B) by lia. rewrite ins_perS, at_p_S. replace (p =? b) with true by (symmetry; apply Z.eqb_eq; lia). reflexivity.
    + rewrite out_S by lia. destruct (S (j + 1)) eqn:E; auto. apply (r_S _ _ _ _ _ _ R) in E. destruct E as (E1 & E2). pose proof (after_gap (j + 1) ltac:(lia) E1). lia.
Qed.
Lemma ins_count : forall a, cnt ins_U a (a + B) = Datatypes.S (cnt U a (a + B)).
Proof.
  intros a. assert (PU : forall z, U (z + B) = U z) by (intros; replace (z + B) with (z + 1 * B) by lia; apply (perU _ _ _ _ _ _ R)).
  assert (PI : forall z, ins_U (z + B) = ins_U z) by (intros; replace (z + B) with (z + 1 * B) by lia; apply ins_perU).
  assert (Rot : forall f, (forall z, f (z + B) = f z) -> forall d, cnt f a (a + B) = cnt f d (d + B)).
  { intros f Pf. assert (Up : forall n d, cnt f d (d + B) = cnt f (d + Z.of_nat n) (d + Z.of_nat n + B)).
    { assert (St : forall d, cnt f d (d + B) = cnt f (d + 1) (d + 1 + B)).
      { intros d. rewrite (cnt_cons f d) by lia. replace (d + 1 + B) with (d + B + 1) by lia. rewrite cnt_snoc by lia. rewrite Pf. lia. }
      induction n; intros d; [now replace (d + Z.of_nat 0) with d by lia|]. rewrite St, IHn. now replace (d + 1 + Z.of_nat n) with (d + Z.of_nat (Datatypes.S n)) by lia. }
    intros d. destruct (Z_le_gt_dec a d).
    - rewrite (Up (Z.to_nat (d - a)) a). now replace (a + Z.of_nat (Z.to_nat (d - a))) with d by lia.
    - rewrite (Up (Z.to_nat (a - d)) d). now replace (d + Z.of_nat (Z.to_nat (a - d))) with a by lia. }
  rewrite (Rot ins_U PI p), (Rot U PU p). pose proof jw.
  rewrite (cnt_app ins_U j (p + B) p), (cnt_app U j (p + B) p) by lia. rewrite (cnt_cons ins_U j), (cnt_cons U j) by lia. rewrite Fj, used_mid by lia.
  rewrite (cnt_ext ins_U U (j + 1)) by (intros; apply used_out; lia). rewrite (cnt_ext ins_U U p j).
  2:{ intros y Hy. rewrite used_mid, Full by lia. auto. }
  lia.
Qed.
End Insert.

Lemma ring_ext : forall B U O C S H U' O' C' S', ring B U O C S H -> (forall z, U' z = U z) -> (forall z, O' z = O z) -> (forall z, C' z = C z) -> (forall z, S' z = S z) ->
  ring B U' O' C' S' H.
Proof.
  intros B U O C S H U' O' C' S' R EU EO EC ES. constructor; intros; rewrite ?EU, ?EO, ?EC, ?ES.
  - apply (r_B _ _ _ _ _ _ R).
  - apply (r_U _ _ _ _ _ _ R).
  - apply (r_perO _ _ _ _ _ _ R).
  - apply (r_perC _ _ _ _ _ _ R).
  - apply (r_perS _ _ _ _ _ _ R).
  - apply (r_perH _ _ _ _ _ _ R).
  - rewrite EU in H0. destruct (r_le _ _ _ _ _ _ R z H0) as (L & I). split; auto. intros. rewrite EU. auto.
  - rewrite EU in H0, H1. now apply (r_adj _ _ _ _ _ _ R).
  - apply (r_S _ _ _ _ _ _ R).
  - apply (r_C _ _ _ _ _ _ R).
  - rewrite (r_O _ _ _ _ _ _ R). split; intros (z & Z1 & Z2); exists z; rewrite EU in *; auto.
  - destruct (r_cut _ _ _ _ _ _ R) as (u & Hu). exists u. now rewrite ES.
Qed.
