(** The backward oracle matcher, and what the turbo variant reports. *)
From Coq Require Import List NArith ZArith Arith Bool Lia Permutation.
From Verif Require Import Base Spec4 PatternModel PatternProof FoModel FoRing FoFree FoArray FoOracle FoProof.
Import ListNotations.
Local Open Scope nat_scope.

(** the k characters before position p, read backwards *)
Fixpoint bw (text : list N) (p k : nat) : list N := match k, p with S k, S p => nth p text 0%N :: bw text p k | _, _ => [] end.
Lemma bw_length : forall text k p, k <= p -> length (bw text p k) = k.
Proof. induction k as [|k IH]; intros p H; [destruct p; reflexivity|]. destruct p as [|p]; [lia|]. cbn [bw length]. rewrite IH; lia. Qed.
Lemma bw_nth : forall text k p j, k <= p -> j < k -> nth j (bw text p k) 0%N = nth (p - 1 - j) text 0%N.
Proof. induction k as [|k IH]; intros p j H Hj; [lia|]. destruct p as [|p]; [lia|]. destruct j as [|j]; cbn [bw nth]; [f_equal; lia|]. rewrite IH by lia. f_equal. lia. Qed.

Section Bom.
Variable key text : list N.
Hypothesis Hkey : nonzero_bytes key.
Hypothesis Htext : bytes_below 256 text.
Variable z : N.
Variable beyond : list N.
Hypothesis Hz : ~ In z text.
Let m := length key.
Variable o : foracle.
Variable log : list (nat * nat).
Variable lrs : list nat.
Hypothesis Hbuilt : Built (rev key) o log lrs.
Lemma rev_bytes : nonzero_bytes (rev key).
Proof. unfold nonzero_bytes in *. rewrite Forall_forall in *. intros c I. apply Hkey. now apply in_rev. Qed.
Let path := path (rev key) log.
Lemma back_ok : forall cnt p s, cnt <= p <= length text -> s <= m -> exists r, bom_back (z :: beyond) o text cnt p s = Ok r /\ r <= cnt /\ (exists u, path s (bw text p (cnt - r)) u) /\ (0 < r -> ~ exists u, path s (bw text p (S (cnt - r))) u).
Proof.
  induction cnt as [|cnt IH]; intros p s Hp Hs.
  - exists 0. split; [reflexivity|]. split; auto. split; [|lia]. exists s. destruct p; constructor.
  - destruct p as [|p]; [lia|]. cbn [bom_back]. rewrite (lget_nth _ text p 0%N) by lia. cbn [bind]. set (c := nth p text 0%N). assert (Ic : In c text) by (apply nth_In; lia). assert (Hc : (c < 256)%N) by (unfold bytes_below in Htext; rewrite Forall_forall in Htext; auto).
    destruct (image_any (rev key) o log lrs rev_bytes Hbuilt z beyond s c) as (r & Er & Hr); [rewrite rev_length; auto|auto|intros ->; auto|]. rewrite Er. cbn [bind]. destruct r as [t|].
    + destruct (proj1 (Hr t) eq_refl) as (Dt & Et). pose proof (D_lt (rev key) (nonzero_nth _ rev_bytes) o log lrs Hbuilt _ _ Dt) as L. rewrite rev_length in L. fold m in L.
      destruct (IH p t ltac:(lia) ltac:(lia)) as (r & E & R1 & (u & P) & R2). exists r. split; auto. split; [lia|]. replace (S cnt - r) with (S (cnt - r)) by lia. split.
      * exists u. cbn [bw]. econstructor; eauto.
      * intros L0 (v & Q). cbn [bw] in Q. inversion Q as [|? ? ? t' ? D1 D2 Q']; subst. assert (t' = t).
        { apply (D_det (rev key) (nonzero_nth _ rev_bytes) o log lrs Hbuilt s); auto. rewrite Et. exact D2. }
        subst t'. apply (R2 L0). eauto.
    + exists (S cnt). split; auto. split; auto. rewrite Nat.sub_diag. split; [exists s; constructor|]. intros _ (v & Q). cbn [bw] in Q. inversion Q as [|? ? ? t' ? D1 D2 Q']; subst. assert (C : None = Some t') by (apply Hr; auto). discriminate.
Qed.
Lemma bw_full : forall i, m <= i <= length text -> (exists u, path 0 (bw text i m) u) -> occurs_at key text (i - m) = true.
Proof.
  intros i Hi (u & P). apply (path_full (rev key) (nonzero_nth _ rev_bytes) o log lrs Hbuilt) in P; [|rewrite bw_length, rev_length by lia; reflexivity]. cbn [skipn] in P.
  apply occurs_spec; [lia|]. split; [fold m; lia|]. intros j Hj. fold m in Hj. assert (E : nth (m - 1 - j) (rev key) 0%N = nth (m - 1 - j) (bw text i m) 0%N) by (now rewrite P).
  rewrite rev_nth in E by (fold m; lia). fold m in E. rewrite bw_nth in E by lia. replace (m - S (m - 1 - j)) with j in E by lia. rewrite E. f_equal. lia.
Qed.
Lemma occ_factor : forall x i r, occurs_at key text x = true -> x <= length text -> r <= m -> 1 <= r -> i < length text -> m <= i + 1 -> i + 1 - m <= x -> x < i + 1 - m + r -> exists u, path 0 (bw text (S i) (S (m - r))) u.
Proof.
  intros x i r Hx Lx Rm R1 Hi Hm X1 X2. apply occurs_spec in Hx; auto. destruct Hx as (Lk & Hx). fold m in Lk, Hx. set (w := bw text (S i) (S (m - r))). set (d := x + m - 1 - i).
  assert (Lw : length w = S (m - r)) by (apply bw_length; lia).
  apply (factor_path (rev key) o log lrs rev_bytes Hbuilt (firstn d (rev key)) w (skipn (d + length w) (rev key))).
  assert (E : w = firstn (length w) (skipn d (rev key))).
  { assert (Ll : length (firstn (length w) (skipn d (rev key))) = length w) by (rewrite firstn_length, skipn_length, rev_length; fold m; lia).
    apply (nth_ext _ _ 0%N 0%N); [auto|]. intros j Hj. rewrite Lw in Hj. unfold w at 1. rewrite bw_nth by lia. replace (S i - 1 - j) with (i - j) by lia.
    rewrite nth_firstn' by lia. rewrite nth_skipn'. rewrite rev_nth by (fold m; lia). fold m. rewrite Hx by lia. f_equal. lia. }
  rewrite E at 1. rewrite <- (firstn_skipn d (rev key)) at 1. f_equal. rewrite <- (firstn_skipn (length w) (skipn d (rev key))) at 1. f_equal. clear. generalize (rev key) as l, (length w) as b. induction d as [|d IH]; intros l b; [reflexivity|]. destruct l as [|a l]; [now rewrite !skipn_nil|]. cbn [skipn plus]. apply IH.
Qed.
Lemma bom_loop_ok : forall fuel i, m <= i + 1 -> 1 <= m -> length text < i + fuel -> bom_loop fuel (z :: beyond) o m text i = Ok (occ_from key text (i + 1 - m)).
Proof.
  induction fuel as [|fuel IH]; intros i Hi Hm Hf; cbn [bom_loop]; destruct (Nat.ltb_spec i (length text)) as [L|L]; try lia.
  - f_equal. symmetry. apply occ_past. fold m. lia.
  - destruct (back_ok m (S i) 0 ltac:(lia) ltac:(lia)) as (r & E & R1 & P & Q). rewrite E. cbn [bind]. destruct (Nat.eqb_spec r 0) as [->|Nr].
    + rewrite Nat.sub_0_r in P. pose proof (bw_full (S i) ltac:(lia) P) as Oc. replace (S i - m) with (i + 1 - m) in Oc by lia. rewrite IH by lia. cbn [bind]. rewrite (occ_step key text (i + 1 - m) 1); try lia. rewrite Oc. do 3 f_equal; lia.
    + rewrite IH by lia. f_equal. assert (No : forall x, i + 1 - m <= x < i + 1 - m + r -> x <= length text -> occurs_at key text x = false).
      { intros x Hx Lx. destruct (occurs_at key text x) eqn:Ox; auto. exfalso. apply Q; [lia|]. apply (occ_factor x i r); auto; lia. }
      rewrite (occ_step key text (i + 1 - m) r); try lia; [|intros; apply No; lia]. rewrite (No (i + 1 - m)) by lia. f_equal. lia.
  - f_equal. symmetry. apply occ_past. fold m. lia.
Qed.
(** what the turbo variant reports *)
Lemma back_zero : forall b cnt p s, bom_back b o text cnt p s = Ok 0 -> cnt <= p.
Proof.
  intros b. induction cnt as [|cnt IH]; intros p s E; [lia|]. destruct p as [|p]; [discriminate|]. cbn [bom_back] in E. apply bind_Ok_inv in E. destruct E as (c & _ & E). apply bind_Ok_inv in E. destruct E as ([t|] & _ & E); [apply IH in E; lia|discriminate].
Qed.
Lemma tbom_sound : forall steps mem next back crit l, tbom_loop steps (z :: beyond) mem next o m text back crit = Ok l -> forall x, In x l -> occurs_at key text x = true /\ x + m <= length text.
Proof.
  induction steps as [|steps IH]; intros mem next back crit l E x I; cbn [tbom_loop] in E; destruct (Z.ltb_spec back (Z.of_nat (length text))) as [L|L]; try discriminate; try (injection E as <-; destruct I; fail).
  destruct (Z.ltb_spec back 0) as [L0|L0]; [discriminate|]. apply bind_Ok_inv in E. destruct E as (r & Er & E). cbv zeta in E. destruct (Nat.eqb_spec r 0) as [->|Nr].
  - apply bind_Ok_inv in E. destruct E as (n & _ & E). apply bind_Ok_inv in E. destruct E as (l' & El & E). injection E as <-. destruct I as [<-|I]; [|eapply IH; eauto]. pose proof (back_zero _ _ _ _ Er) as Hw.
    destruct (back_ok m (S (Z.to_nat back)) 0 ltac:(lia) ltac:(lia)) as (r & E & _ & P & _). assert (r = 0) by congruence. subst r. rewrite Nat.sub_0_r in P. replace (Z.to_nat (back - Z.of_nat m + 1)) with (S (Z.to_nat back) - m) by lia. split; [apply bw_full; [lia|auto]|lia].
  - destruct (Z.of_nat (length text) <? _)%Z; [discriminate|]. apply bind_Ok_inv in E. destruct E as (n & _ & E). eapply IH; eauto.
Qed.
End Bom.
Theorem bom_correct : forall fuel text key z beyond, key <> [] -> nonzero_bytes key -> bytes_below 256 text -> ~ In z text ->
  match_bom fuel (z :: beyond) text key = Fuel \/ match_bom fuel (z :: beyond) text key = Ok (occurrences key text).
Proof.
  intros fuel text key z beyond Nk Hk Ht Hz. assert (Lk : 1 <= length key) by (destruct key; [congruence|cbn [length]; lia]). pose proof (rev_bytes key Hk) as Hr. unfold match_bom. destruct (build_ok (rev key) (nonzero_nth _ Hr) fuel ltac:(rewrite rev_length; lia)) as (q0 & _ & [(E & _)|(o & log & lrs & E & B)]); rewrite E; cbn [bind]; [now left|right].
  rewrite (bom_loop_ok key text Hk Ht z beyond Hz o log lrs B) by lia. replace (length key - 1 + 1 - length key) with 0 by lia. now rewrite occ_all.
Qed.
Theorem bom_few_letters : forall text key z beyond, key <> [] -> nonzero_bytes key -> bytes_below 256 text -> ~ In z text -> (length key - 2) * (letters key - 1) + 2 <= 256 * ((length key + 255) / 256) ->
  exists n, forall fuel, n <= fuel -> match_bom fuel (z :: beyond) text key = Ok (occurrences key text).
Proof.
  intros text key z beyond Nk Hk Ht Hz Hc. pose proof (rev_bytes key Hk) as Hr. destruct (build_terminates (rev key)) as (n & o & H); auto.
  - intros C. apply Nk. rewrite <- (rev_involutive key), C. reflexivity.
  - rewrite rev_length. assert (El : letters (rev key) = letters key); [|rewrite El; exact Hc]. unfold letters. apply Nat.le_antisymm; apply NoDup_incl_length; try apply NoDup_nodup; intros c I; apply nodup_In in I; apply nodup_In; [now apply in_rev|now apply in_rev in I].
  - exists n. intros fuel Hf. destruct (bom_correct fuel text key z beyond Nk Hk Ht Hz) as [E|E]; auto. unfold match_bom in E. rewrite (H fuel Hf) in E. cbn [bind] in E.
    exfalso. destruct (bom_correct fuel text key z beyond Nk Hk Ht Hz) as [E'|E']; unfold match_bom in E'; rewrite (H fuel Hf) in E'; cbn [bind] in E'; [|congruence].
    destruct (build_Built fuel (rev key) o Hr (H fuel Hf)) as (log & lrs & B). assert (Lk : 1 <= length key) by (destruct key; [congruence|cbn [length]; lia]). rewrite (bom_loop_ok key text Hk Ht z beyond Hz o log lrs B) in E by lia. discriminate.
Qed.
Theorem tbom_reports : forall fuel steps text key z beyond beyond_key l, nonzero_bytes key -> bytes_below 256 text -> ~ In z text -> match_tbom fuel steps (z :: beyond) beyond_key text key = Ok l -> forall x, In x l -> In x (occurrences key text).
Proof.
  intros fuel steps text key z beyond bk l Hk Ht Hz E x I. unfold match_tbom in E. apply bind_Ok_inv in E. destruct E as (o & Eo & E). apply bind_Ok_inv in E. destruct E as (next & _ & E). destruct (build_Built fuel (rev key) o (rev_bytes key Hk) Eo) as (log & lrs & B).
  destruct (tbom_sound key text Hk Ht z beyond Hz o log lrs B _ _ _ _ _ _ E x I) as (O & L). unfold occurrences. apply filter_In. split; auto. apply in_seq. lia.
Qed.
