(** What the matchers do when the characters of the key change or vanish after construction. *)
From Coq Require Import List NArith ZArith Arith Bool Lia Sorted.
From Verif Require Import Base Spec4 Spec20 MatchSpec PatternModel PatternProof KmpProof SundayProof TurboProof MatchProof FoModel FoProof BomProof KeyViewModel.
Import ListNotations.
Local Open Scope nat_scope.

(** ** Simple *)
Lemma get_prefix : forall (a b : list N) i, i < length a -> lget (a ++ b) i = lget a i.
Proof. intros a b i H. unfold lget. now rewrite nth_error_app1. Qed.
Lemma simple_pos_same : forall fuel key rest text i pos, simple_pos_v fuel (length key) (key ++ rest) text i pos = simple_pos fuel key text i pos.
Proof.
  induction fuel as [|fuel IH]; intros key rest text i pos; cbn [simple_pos_v simple_pos]; auto. destruct (Nat.ltb_spec pos (length key)); auto. rewrite get_prefix by auto. destruct (lget key pos); cbn [bind]; auto. destruct (lget text (i + pos)); cbn [bind]; auto. now rewrite IH.
Qed.
Lemma simple_loop_same : forall fuel key rest text i, simple_loop_v fuel (length key) (key ++ rest) text i = simple_loop fuel key text i.
Proof.
  induction fuel as [|fuel IH]; intros key rest text i; cbn [simple_loop_v simple_loop]; auto. now rewrite simple_pos_same, IH.
Qed.
Theorem simple_follows : forall steps beyond key key' rest text x, length key' = length key -> make_simple key = Ok x -> find_all steps beyond (key' ++ rest) x text = Ok (occurrences key' text).
Proof.
  intros steps beyond key key' rest text x L H. injection H as <-. cbn [find_all]. rewrite <- L. rewrite <- simple_correct. unfold match_simple. destruct (_ <? _); auto. apply simple_loop_same.
Qed.
Theorem simple_gone : forall steps beyond key text x, make_simple key = Ok x -> (find_all steps beyond [] x text = UB <-> 1 <= length key <= length text) /\ (find_all steps beyond [] x text = UB \/ find_all steps beyond [] x text = Ok (occurrences key text)).
Proof.
  intros steps beyond key text x H. injection H as <-. cbn [find_all]. destruct (Nat.ltb_spec (length text) (length key)).
  - rewrite <- occ_all, occ_past by lia. split; [split; [discriminate|lia]|auto].
  - destruct key as [|c key].
    + pose proof (simple_follows 0 [] [] [] [] text _ eq_refl eq_refl) as E. cbn [find_all app length] in E. change (length text <? 0) with false in E. cbv iota in E. cbn [length]. rewrite E. split; [split; [discriminate|lia]|auto].
    + assert (E : simple_loop_v (S (length text)) (length (c :: key)) [] text 0 = UB).
      { cbn [simple_loop_v]. destruct (Nat.ltb_spec (length text - length (c :: key)) 0); [lia|]. reflexivity. }
      rewrite E. split; [cbn [length] in *; split; [lia|auto]|auto].
Qed.

(** ** Kmp and TurboBom *)
Theorem kmp_gone : forall steps beyond key c text x, make_kmp key = Ok x -> find_all steps beyond [] x (c :: text) = UB.
Proof. intros steps beyond key c text x H. apply bind_Ok_inv in H as (next & _ & H). injection H as <-. reflexivity. Qed.
Theorem turbo_kept : forall fuel steps z beyond key mem text x l, nonzero_bytes key -> bytes_below 256 text -> ~ In z text -> make_turbo fuel key = Ok x ->
  find_all steps (z :: beyond) mem x text = Ok l -> forall i, In i l -> In i (occurrences key text).
Proof.
  intros fuel steps z beyond key mem text x l Hk Ht Hz H E i I. apply bind_Ok_inv in H as (o & Eo & H). apply bind_Ok_inv in H as (next & _ & H). injection H as <-. cbn [find_all] in E.
  destruct (build_Built fuel (rev key) o (rev_bytes key Hk) Eo) as (log & lrs & B). destruct (tbom_sound key text Hk Ht z beyond Hz o log lrs B _ _ _ _ _ _ E i I) as (O & L). unfold occurrences. apply filter_In. split; auto. apply in_seq. lia.
Qed.

(** ** Bm *)
Lemma bm_table : forall key, key <> [] -> bytes_below 128 (removelast key) -> exists tb, bm_make key = Ok tb /\ length tb = 255 /\
  forall c, N.to_nat c < 255 -> (exists j, last_at key (length key - 1) c j /\ nth (N.to_nat c) tb 0 = length key - j - 1) \/ ((forall j, j < length key - 1 -> nth j key 0%N <> c) /\ nth (N.to_nat c) tb 0 = length key).
Proof.
  intros key Nk Hk. unfold bm_make. assert (L1 : 1 <= length key) by (destruct key; [congruence|simpl; lia]). rewrite (proj2 (Nat.eqb_neq _ _)) by lia.
  pose (key1 := removelast key). assert (Ll : length key1 = length key - 1) by (unfold key1; rewrite removelast_firstn_len, firstn_length; lia).
  assert (En : forall j, j < length key - 1 -> nth j key1 0%N = nth j key 0%N) by (intros j Hj; unfold key1; rewrite removelast_firstn_len; apply nth_firstn'; lia).
  destruct (table_ok key1 (fun i => length key - i - 1) (length key) 255 ltac:(lia)) with (k := length key - 1) as (tb & E & L & T); [intros j Hj; left; apply bytes_below_nth; auto|lia|].
  exists tb. split; [|split; auto].
  - rewrite <- E. clear E. assert (G : forall k s, s + k <= length key - 1 -> forall acc, foldM (fun skip i => do c <- lget key i; do x <- char_index c; lset skip x (length key - i - 1)) (seq s k) acc = foldM (fun tb i => do c <- lget key1 i; do x <- char_index c; lset tb x (length key - i - 1)) (seq s k) acc).
    { induction k as [|k IHk]; intros s Hs acc; auto. cbn [seq foldM]. rewrite (lget_nth _ key s 0%N), (lget_nth _ key1 s 0%N) by lia. rewrite En by lia. cbn [bind].
      destruct (char_index (nth s key 0%N)) as [x| | |]; cbn [bind]; auto. destruct (lset acc x (length key - s - 1)); cbn [bind]; auto. apply IHk. lia. }
    apply G. lia.
  - intros c Hc. destruct (T c Hc) as [(j & (J1 & J2 & J3) & Ej)|(J & Ej)].
    + left. exists j. split; auto. split; auto. rewrite <- En by auto. split; auto. intros x Hx. rewrite <- En by lia. now apply J3.
    + right. split; auto. intros j Hj. rewrite <- En by auto. now apply J.
Qed.
Lemma bm_back_prefix : forall key rest text cnt pos, cnt <= length key -> bm_back (key ++ rest) text cnt pos = bm_back key text cnt pos.
Proof.
  induction cnt as [|k IH]; intros pos H; cbn [bm_back]; auto. rewrite get_prefix by lia. destruct (lget key k); cbn [bind]; auto. destruct pos; auto. destruct (lget text pos); cbn [bind]; auto. rewrite IH by lia. reflexivity.
Qed.
Lemma bm_loop_v_ok : forall key key' rest text skip, 1 <= length key -> length key' = length key -> bytes_below 128 text -> length skip = 255 ->
  (forall c, N.to_nat c < 255 -> (exists j, last_at key (length key - 1) c j /\ nth (N.to_nat c) skip 0 = length key - j - 1) \/ ((forall j, j < length key - 1 -> nth j key 0%N <> c) /\ nth (N.to_nat c) skip 0 = length key)) ->
  forall fuel i, length key - 1 <= i -> S (length text) - i <= fuel -> exists l, bm_loop_v fuel (length key) (key' ++ rest) text skip i = Ok l /\ StronglySorted lt l /\
    forall x, In x l <-> occurs_at key' text x = true /\ x + length key <= length text /\ bm_reaches key text i (x + length key - 1).
Proof.
  intros key key' rest text skip Hk Lk Hb Ls Ts. induction fuel as [|fuel IH]; intros i Hi Hf; cbn [bm_loop_v]; destruct (Nat.leb_spec (length text) i); try lia.
  1, 2: exists []; split; [reflexivity|]; split; [constructor|]; intros x; split; [intros []|]; intros (_ & H1 & H2); apply bm_reaches_le in H2; lia.
  rewrite bm_back_prefix by lia. destruct (bm_back_ok key' text (length key) (S i) ltac:(lia) ltac:(lia) ltac:(lia)) as (b & Eb & Hb'). rewrite Eb. cbn [bind]. rewrite (lget_nth _ text i 0%N) by lia. cbn [bind]. unfold char_index.
  pose proof (bytes_below_nth _ _ i Hb ltac:(lia)) as Bc. rewrite (proj2 (N.ltb_lt _ _)) by auto. cbn [bind]. rewrite (lget_nth _ skip _ 0) by (rewrite Ls; lia). cbn [bind].
  pose proof (bm_step key text skip Hk Ls Ts i) as Step. pose proof (bm_step_inv key text skip Hk Ls Ts i) as Inv.
  set (c := nth i text 0%N) in *. set (s := nth (N.to_nat c) skip 0) in *.
  assert (S1 : 1 <= s <= length key). { unfold s. destruct (Ts c ltac:(lia)) as [(j & (J1 & _) & ->)|(_ & ->)]; lia. }
  destruct (IH (i + s) ltac:(lia) ltac:(lia)) as (l & El & Sl & Il). rewrite El. cbn [bind].
  assert (O : occurs_at key' text (i + 1 - length key) = b). { apply eq_true_iff_eq. rewrite Hb', occurs_spec by lia. rewrite Lk. replace (S i - length key) with (i + 1 - length key) by lia. split; [intros (_ & H'); auto|intros H'; split; [lia|auto]]. }
  assert (F : forall x, In x l -> i + 1 - length key < x) by (intros x X; apply Il in X as (_ & X1 & X2); apply bm_reaches_le in X2; lia).
  eexists. split; [reflexivity|]. split.
  - destruct b; auto. constructor; auto. apply Forall_forall. exact F.
  - intros x. assert (Q : In x l \/ (b = true /\ x = i + 1 - length key) <-> occurs_at key' text x = true /\ x + length key <= length text /\ bm_reaches key text i (x + length key - 1)).
    { split.
      - intros [X|[-> ->]]; [apply Il in X as (X1 & X2 & X3); split; auto|]. split; auto. split; [lia|]. replace (i + 1 - length key + length key - 1) with i by lia. constructor.
      - intros (X1 & X2 & X3). apply Inv in X3; auto. destruct X3 as [X3|X3]; [right|left; apply Il; auto]. assert (E : x = i + 1 - length key) by lia. split; [|exact E]. rewrite <- O, <- E. auto. }
    rewrite <- Q. destruct b; cbn [In]; intuition congruence.
Qed.
Theorem bm_follows : forall steps beyond key key' rest text, key <> [] -> bytes_below 128 (removelast key) -> bytes_below 128 text -> length key' = length key -> exists x l, make_bm key = Ok x /\ find_all steps beyond (key' ++ rest) x text = Ok l /\ StronglySorted lt l /\
  forall i, In i l <-> In i (occurrences key' text) /\ bm_reaches key text (length key - 1) (i + length key - 1).
Proof.
  intros steps beyond key key' rest text Nk Hk Ht L. destruct (bm_table key Nk Hk) as (tb & E & Lt & T). assert (L1 : 1 <= length key) by (destruct key; [congruence|cbn; lia]).
  destruct (bm_loop_v_ok key key' rest text tb L1 L Ht Lt T (S (length text)) (length key - 1) ltac:(lia) ltac:(lia)) as (l & El & Sl & Il). exists (MBm (length key) tb), l. unfold make_bm. rewrite E. split; auto. split; [exact El|]. split; auto.
  intros i. rewrite Il. unfold occurrences. rewrite filter_In, in_seq. split; [intros (A1 & A2 & A3); split; [split; auto; lia|auto]|]. intros ((A1 & A2) & A3). split; auto. split; auto. apply occurs_spec in A2; lia.
Qed.
Theorem bm_gone : forall steps beyond key text x, make_bm key = Ok x -> (find_all steps beyond [] x text = UB <-> length key <= length text) /\ (find_all steps beyond [] x text = UB \/ find_all steps beyond [] x text = Ok []).
Proof.
  intros steps beyond key text x H. apply bind_Ok_inv in H as (tb & E & H). injection H as <-. cbn [find_all bm_loop_v]. assert (L1 : 1 <= length key). { unfold bm_make in E. destruct (Nat.eqb_spec (length key) 0); [discriminate|lia]. }
  destruct (Nat.leb_spec (length text) (length key - 1)); [split; [split; [discriminate|lia]|auto]|]. destruct (length key) as [|k] eqn:Ek; [lia|]. cbn [bm_back lget nth_error]. unfold lget. replace (nth_error (@nil N) k) with (@None N) by (destruct k; reflexivity). cbn [bind]. split; [split; [lia|auto]|auto].
Qed.

(** ** Bom and the Sunday matchers *)
Theorem bom_kept : forall fuel steps z beyond key mem text x, key <> [] -> nonzero_bytes key -> bytes_below 256 text -> ~ In z text -> make_bom fuel key = Ok x -> find_all steps (z :: beyond) mem x text = Ok (occurrences key text).
Proof.
  intros fuel steps z beyond key mem text x Nk Hk Ht Hz H. apply bind_Ok_inv in H as (o & Eo & H). injection H as <-. cbn [find_all]. destruct (build_Built fuel (rev key) o (rev_bytes key Hk) Eo) as (log & lrs & B). assert (Lk : 1 <= length key) by (destruct key; [congruence|cbn [length]; lia]).
  rewrite (bom_loop_ok key text Hk Ht z beyond Hz o log lrs B) by lia. replace (length key - 1 + 1 - length key) with 0 by lia. now rewrite occ_all.
Qed.
Theorem sunday_kept : forall steps beyond key mem text, bytes_below 128 key -> bytes_below 255 text -> (N.of_nat (length text) < 2 ^ 64)%N -> length key <= length text ->
  exists x y, make_qs key = Ok x /\ make_ms key = Ok y /\ find_all steps beyond mem x text = Ok (occurrences key text) /\ find_all steps beyond mem y text = Ok (occurrences key text).
Proof.
  intros steps beyond key mem text Hk Ht Hn Hm. assert (D : sunday_domain text key) by (repeat split; auto). pose proof (qs_correct text key D) as Q. pose proof (ms_correct text key D) as M. unfold match_qs in Q. unfold match_ms in M. unfold make_qs, make_ms.
  apply bind_Ok_inv in Q as (pats & E1 & Q). rewrite E1 in *. cbn [bind] in *. apply bind_Ok_inv in Q as (td1 & E2 & Q). rewrite E2 in *. cbn [bind] in *. apply bind_Ok_inv in M as (td2 & E3 & M). rewrite E3 in *. cbn [bind]. eexists _, _. split; [reflexivity|]. split; [reflexivity|]. cbn [find_all]. auto.
Qed.
