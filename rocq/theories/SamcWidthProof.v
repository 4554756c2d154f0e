(** The construction with truncated codes and heads is the one of SamcModel.v exactly if the storage fits. *)
From Coq Require Import List NArith ZArith Arith Bool Lia Sorted.
From Verif Require Import Base Spec Spec5 BitUtilModel BitVectorModel BitVectorProof BitVectorProof2 SamcModel SamcWidthModel SamcPack SamcLevel SamcTree SamcProof SamcAccept.
Import ListNotations.
Local Open Scope nat_scope.
Ltac Zify.zify_post_hook ::= idtac.

Lemma to_size_small : forall x, (0 <= x < 2 ^ 64)%Z -> to_size x = Z.to_N x.
Proof. intros x H. unfold to_size. rewrite Z.mod_small by exact H. reflexivity. Qed.
Lemma to_size_mod : forall x y, (x mod 2 ^ 64 = y mod 2 ^ 64)%Z -> to_size x = to_size y.
Proof. intros x y H. unfold to_size. rewrite H. reflexivity. Qed.

Section W.
Variable cw : nat.
Hypothesis Hcw : In cw [1; 2; 4; 8].
Notation B := (2 ^ N.of_nat (8 * cw))%N.
Lemma B_le : (B <= 2 ^ 64)%N.
Proof using Hcw. apply N.pow_le_mono_r; [lia|]. destruct Hcw as [<-|[<-|[<-|[<-|[]]]]]; lia. Qed.
Lemma B_pos : (0 < B)%N.
Proof. apply N.neq_0_lt_0. apply N.pow_nonzero. lia. Qed.
Lemma to_code_small : forall x, (x < B)%N -> to_code cw x = x.
Proof. intros x H. unfold to_code. apply N.mod_small. exact H. Qed.
Lemma to_code_lt : forall x, (to_code cw x < B)%N.
Proof. intros x. unfold to_code. apply N.mod_lt. pose proof B_pos. lia. Qed.
Lemma prev_ok : forall h0 h1, h0 <= h1 -> (N.of_nat h1 < B)%N -> prev_height cw (N.of_nat h0) (N.of_nat h1) = N.of_nat (h1 - h0).
Proof using Hcw.
  intros h0 h1 H L. pose proof B_le. unfold prev_height. destruct (Nat.eqb_spec cw 4) as [->|Q].
  - change (2 ^ N.of_nat (8 * 4))%N with (2 ^ 32)%N in L. replace (N.of_nat h1 + 2 ^ 32 - N.of_nat h0)%N with (N.of_nat (h1 - h0) + 1 * 2 ^ 32)%N by lia. rewrite N.mod_add by discriminate. apply N.mod_small. lia.
  - rewrite to_size_small; [lia|]. split; [lia|]. assert (N.of_nat h1 < 2 ^ 64)%N by lia. lia.
Qed.


Definition trunc (st : level) : level := {| lv_bv := lv_bv st; lv_max := lv_max st; lv_row := map (to_code cw) (lv_row st); lv_map := lv_map st; lv_queue := lv_queue st |}.
Definition tops (h1 : nat) (st : level) : Prop := lv_max st = 0 \/ In (h1 + lv_max st - 1) (map fst (lv_map st)).
(** one node: the same place, if it is at or behind h1 *)
Lemma place_same : forall h0 h1 c code st e st', place h0 h1 c code st e = Ok st' -> h1 <= h0 + snd (fst e) + N.to_nat code ->
  (N.of_nat (h0 + snd (fst e) + N.to_nat code) < 2 ^ 63)%N ->
  place_w (N.of_nat h0) (N.of_nat h1) c code (trunc st) e = Ok (trunc st') /\ lv_row st' = lv_row st /\ lv_max st <= lv_max st' /\ (tops h1 st -> tops h1 st').
Proof using.
  intros h0 h1 c code st e st' P H1 HB. unfold place in P. cbv zeta in P. unfold place_w. cbv zeta.
  assert (X : wrap64 (N.of_nat h0 + N.of_nat (snd (fst e)) + code) = N.of_nat (h0 + snd (fst e) + N.to_nat code)). { unfold wrap64. replace (N.of_nat h0 + N.of_nat (snd (fst e)) + code)%N with (N.of_nat (h0 + snd (fst e) + N.to_nat code)) by lia. apply N.mod_small. lia. }
  rewrite X. set (index := h0 + snd (fst e) + N.to_nat code) in *.
  assert (Y : to_size (Z.of_N (N.of_nat index) - Z.of_N (N.of_nat h1)) = N.of_nat (index - h1)). { rewrite to_size_small; [lia|]. lia. }
  rewrite Y, !Nnat.Nat2N.id. cbn [trunc lv_bv lv_max lv_row lv_map lv_queue]. apply bind_Ok_inv in P. destruct P as (bv & P1 & P2). injection P2 as <-. rewrite P1. cbn [bind trunc lv_bv lv_max lv_row lv_map lv_queue].
  assert (L : index - h1 < 64 * length (bv_words (lv_bv st))).
  { unfold bv_set in P1. rewrite make_ref_Ok in P1. cbn [bind] in P1. unfold ref_set, wgetZ in P1. cbn [ref_seg] in P1. destruct (Z.ltb_spec (Z.of_nat ((index - h1) / 64)) 0) as [Q|Q]; [lia|]. rewrite Nat2Z.id in P1.
    destruct (Nat.lt_ge_cases ((index - h1) / 64) (length (bv_words (lv_bv st)))) as [L|L].
    - pose proof (Nat.div_mod (index - h1) 64 ltac:(lia)). pose proof (Nat.mod_upper_bound (index - h1) 64 ltac:(lia)). lia.
    - assert (U : lget (bv_words (lv_bv st)) ((index - h1) / 64) = UB) by (apply lget_UB; auto). rewrite U in P1. discriminate P1. }
  destruct (N.ltb_spec (N.of_nat (index - h1)) (N.of_nat (64 * length (bv_words (lv_bv st))))) as [_|Q]; [|lia]. cbn [negb].
  split; [reflexivity|]. split; [reflexivity|]. split; [lia|]. unfold tops. cbn [lv_max lv_map]. rewrite map_app. cbn [map fst]. intros [T|T].
  - right. rewrite T. apply in_or_app. right. left. lia.
  - right. apply in_or_app. destruct (Nat.le_gt_cases (lv_max st) (index - h1 + 1)) as [Q|Q]; [right; left; lia|]. left. replace (Nat.max (lv_max st) (index - h1 + 1)) with (lv_max st) by lia. exact T.
Qed.
Lemma places_same : forall ms h0 h1 c code st st', foldM (place h0 h1 c code) ms st = Ok st' ->
  (forall e, In e ms -> h1 <= h0 + snd (fst e) + N.to_nat code /\ (N.of_nat (h0 + snd (fst e) + N.to_nat code) < 2 ^ 63)%N) ->
  foldM (place_w (N.of_nat h0) (N.of_nat h1) c code) ms (trunc st) = Ok (trunc st') /\ lv_row st' = lv_row st /\ lv_max st <= lv_max st' /\ (tops h1 st -> tops h1 st').
Proof using.
  induction ms as [|e ms IH]; intros h0 h1 c code st st' P H; cbn [foldM] in *.
  - injection P as <-. auto.
  - apply bind_Ok_inv in P. destruct P as (s1 & P1 & P2). destruct (H e (or_introl eq_refl)) as [A1 A2]. destruct (place_same _ _ _ _ _ _ _ P1 A1 A2) as (Q1 & Q2 & Q3 & Q4). rewrite Q1. cbn [bind].
    destruct (IH _ _ _ _ _ _ P2) as (R1 & R2 & R3 & R4). { intros x X. apply H. right. exact X. } split; auto. split; [congruence|]. split; [lia|auto].
Qed.
Lemma places_row : forall ms h0 h1 c code st st', foldM (place h0 h1 c code) ms st = Ok st' -> lv_row st' = lv_row st /\ lv_max st <= lv_max st'.
Proof using.
  induction ms as [|e ms IH]; intros h0 h1 c code st st' P; cbn [foldM] in *.
  - injection P as <-. auto.
  - apply bind_Ok_inv in P. destruct P as (s1 & P1 & P2). apply IH in P2. destruct P2 as [R1 R2]. unfold place in P1. cbv zeta in P1. apply bind_Ok_inv in P1. destruct P1 as (bv & _ & P1). injection P1 as <-. cbn [lv_row lv_max] in *. split; [auto|lia].
Qed.
Lemma map_upd : forall (l : list N) i x, map (to_code cw) (upd l i x) = upd (map (to_code cw) l) i (to_code cw x).
Proof using. induction l as [|a l IH]; intros [|i] x; cbn [upd map]; auto. rewrite IH. reflexivity. Qed.

(** one character *)
Lemma char_same : forall legacy h0 h1 E st ci st', char_step legacy h0 h1 E st ci = Ok st' -> h0 <= h1 -> (N.of_nat h1 < B)%N -> (forall e, In e E -> h0 + tid e < h1) ->
  (forall e, In e (mine E ci) -> h1 <= posn h0 (lv_row st') e /\ (N.of_nat (posn h0 (lv_row st') e) < 2 ^ 63)%N) ->
  char_step_w cw legacy (N.of_nat h0) (N.of_nat h1) E (trunc st) ci = Ok (trunc st') /\ lv_max st <= lv_max st' /\ (tops h1 st -> tops h1 st').
Proof using Hcw.
  intros legacy h0 h1 E st ci st' P H01 HB HE HP. unfold char_step in P. unfold char_step_w. cbv zeta in *.
  change (filter (fun e : N * nat * list (list N) => (fst (fst e) =? N.of_nat ci)%N) E) with (mine E ci) in *. cbn [trunc lv_bv lv_max lv_row lv_map lv_queue].
  change (@map (N * nat * list (list N)) nat (fun e => snd (fst e))) with (@map edge nat tid) in *.
  set (ids := map tid (mine E ci)) in *. destruct (list_eq_dec Nat.eq_dec ids []) as [EI|NI].
  { rewrite EI in *. injection P as <-. auto. }
  rewrite match_nonempty in * by exact NI. set (height := 1 + max_index ids - min_index ids) in *.
  apply bind_Ok_inv in P. destruct P as (bv & P1 & P). rewrite P1. cbn [bind]. apply bind_Ok_inv in P. destruct P as (y & P2 & P). rewrite P2. cbn [bind].
  apply bind_Ok_inv in P. destruct P as (row & P3 & P). pose proof (places_row _ _ _ _ _ _ _ P) as [R1 R2]. cbn [lv_row lv_max] in R1, R2.
  assert (LR : ci < length (lv_row st)). { unfold lset in P3. destruct (Nat.ltb_spec ci (length (lv_row st))); [auto|discriminate]. }
  rewrite lset_Ok in P3 by exact LR. injection P3 as <-. rewrite prev_ok by auto.
  set (code := Z.to_N (Z.of_nat (h1 - h0) + y)) in *.
  assert (NC : nth ci (lv_row st') 0%N = code). { rewrite R1, nth_upd, Nat.eqb_refl. cbn [andb]. destruct (Nat.ltb_spec ci (length (lv_row st))); [reflexivity|lia]. }
  assert (PM : forall e, In e (mine E ci) -> posn h0 (lv_row st') e = h0 + snd (fst e) + N.to_nat code). { intros e He. apply mine_spec in He. unfold posn. rewrite (proj2 He), Nnat.Nat2N.id, NC. reflexivity. }
  assert (X : exists e, In e (mine E ci)). { destruct (mine E ci) as [|e r]; [exfalso; apply NI; reflexivity|]. exists e. left. reflexivity. }
  destruct X as (e0 & X). pose proof (HP e0 X) as [X1 X2]. rewrite (PM e0 X) in X1, X2. apply mine_spec in X. destruct X as [X _]. specialize (HE e0 X). unfold tid in HE.
  assert (EC : to_size (Z.of_N (N.of_nat (h1 - h0)) + y) = code). { unfold code in *. rewrite nat_N_Z. apply to_size_small. lia. }
  rewrite EC. rewrite lset_Ok by (rewrite map_length; exact LR). cbn [bind].
  destruct (places_same (mine E ci) h0 h1 (N.of_nat ci) code _ _ P) as (Q1 & Q2 & Q3 & Q4). { intros e He. rewrite <- (PM e He). apply HP. exact He. }
  unfold trunc at 1 in Q1. cbn [lv_bv lv_max lv_row lv_map lv_queue] in Q1. rewrite map_upd in Q1. split; [exact Q1|]. split; [exact Q3|]. intros T. apply Q4. exact T.
Qed.

(** one level *)
Section Level.
Variables (h0 h1 : nat) (map0 : list (nat * N)) (E : list edge).
Hypothesis HE : forall e, In e E -> (tc e < 256)%N /\ h0 + tid e < h1.
Hypothesis HD : NoDup (map fst E).
Hypothesis H01 : h0 <= h1.
Hypothesis HB : (N.of_nat h1 < B)%N.
Definition init : level := {| lv_bv := bv_default; lv_max := 0; lv_row := repeat 0%N 256; lv_map := map0; lv_queue := [] |}.
Lemma trunc_init : trunc init = init.
Proof using. unfold trunc, init. cbn [lv_bv lv_max lv_row lv_map lv_queue]. reflexivity. Qed.
Lemma chars_same : forall legacy k st, k <= 256 -> foldM (char_step legacy h0 h1 E) (seq 0 k) init = Ok st -> (N.of_nat (h1 + lv_max st) < 2 ^ 63)%N ->
  foldM (char_step_w cw legacy (N.of_nat h0) (N.of_nat h1) E) (seq 0 k) init = Ok (trunc st) /\ tops h1 st.
Proof using Hcw HE HD H01 HB.
  intros legacy. induction k as [|k IH]; intros st Hk F M.
  - cbn [seq foldM] in *. injection F as <-. rewrite trunc_init. split; [reflexivity|]. left. reflexivity.
  - destruct (chars_ok h0 h1 map0 E HE HD legacy k ltac:(lia)) as (s1 & l1 & D & F1 & I1 & R1 & D1). fold init in F1. rewrite seq_S, foldM_app in F |- *. rewrite F1 in F. cbn [bind Nat.add foldM] in F.
    destruct (char_ok h0 h1 map0 E HE HD legacy D s1 l1 k I1 R1 ltac:(lia)) as (s2 & l2 & F2 & I2 & _). { intros e He. apply D1 in He. lia. }
    rewrite F2 in F. cbn [bind] in F. injection F as <-.
    destruct (char_same legacy h0 h1 E s1 k s2 F2 H01 HB) as (S1 & S2 & S3). { intros e He. apply HE. exact He. }
    { intros e He. destruct (li_range _ _ _ _ _ _ I2 e) as [A1 A2]; [apply in_or_app; right; exact He|]. split; [exact A1|]. lia. }
    destruct (IH s1 ltac:(lia) F1) as [T1 T2]. { lia. }
    rewrite T1. cbn [bind Nat.add foldM]. rewrite S1. cbn [bind]. split; auto.
Qed.
(** the codes are below the end of the level *)
Lemma row_lt : forall legacy st, foldM (char_step legacy h0 h1 E) (seq 0 256) init = Ok st -> 0 < lv_max st -> Forall (fun c => (N.of_nat h0 + c < N.of_nat (h1 + lv_max st))%N) (lv_row st).
Proof using HE HD H01 HB.
  intros legacy st F M. destruct (level_ok h0 h1 map0 E HE HD legacy) as (s1 & l1 & D & F1 & I1 & R1 & D1). fold init in F1. rewrite F1 in F. injection F as <-.
  apply Forall_forall. intros x X. destruct (In_nth _ _ 0%N X) as (i & Hi & <-). destruct R1 as [R1 R2].
  destruct (existsb (fun e => (tc e =? N.of_nat i)%N) D) eqn:Q.
  - apply existsb_exists in Q. destruct Q as (e & Q1 & Q2). apply N.eqb_eq in Q2. pose proof (li_range _ _ _ _ _ _ I1 e Q1) as [_ P]. unfold posn in P. rewrite Q2, Nnat.Nat2N.id in P. lia.
  - rewrite R2; [lia|]. intros e He Y. assert (Z : existsb (fun e => (tc e =? N.of_nat i)%N) D = true) by (apply existsb_exists; exists e; split; [exact He|apply N.eqb_eq; exact Y]). congruence.
Qed.
End Level.

Lemma trunc_small : forall st, Forall (fun c => (c < B)%N) (lv_row st) -> trunc st = st.
Proof using. intros [bv mx row mp q] H. unfold trunc. cbn [lv_bv lv_max lv_row lv_map lv_queue] in *. f_equal. induction H as [|x l Hx _ IH]; cbn [map]; [reflexivity|]. rewrite IH, to_code_small by exact Hx. reflexivity. Qed.

(** whatever happens later, the writes made stay and the heads are below the bound *)
Lemma place_w_map : forall ms h0 h1 c code st st', foldM (place_w h0 h1 c code) ms st = Ok st' -> incl (lv_map st) (lv_map st').
Proof using.
  induction ms as [|e ms IH]; intros h0 h1 c code st st' P; cbn [foldM] in P; [injection P as <-; apply incl_refl|].
  apply bind_Ok_inv in P. destruct P as (s1 & P1 & P2). apply IH in P2. unfold place_w in P1. cbv zeta in P1.
  destruct (negb _) in P1; [discriminate|]. apply bind_Ok_inv in P1. destruct P1 as (bv & _ & P1). injection P1 as <-. cbn [lv_map] in P2. eapply incl_tran; [|exact P2]. apply incl_appl. apply incl_refl.
Qed.
Lemma char_w_map : forall legacy h0 h1 E st ci st', char_step_w cw legacy h0 h1 E st ci = Ok st' -> incl (lv_map st) (lv_map st').
Proof using.
  intros legacy h0 h1 E st ci st' P. unfold char_step_w in P. cbv zeta in P. destruct (map _ _) as [|a r] in P; [injection P as <-; apply incl_refl|].
  apply bind_Ok_inv in P. destruct P as (bv & _ & P). apply bind_Ok_inv in P. destruct P as (y & _ & P). apply bind_Ok_inv in P. destruct P as (row & _ & P). apply place_w_map in P. exact P.
Qed.
Lemma chars_w_map : forall cs legacy h0 h1 E st st', foldM (char_step_w cw legacy h0 h1 E) cs st = Ok st' -> incl (lv_map st) (lv_map st').
Proof using.
  induction cs as [|c cs IH]; intros legacy h0 h1 E st st' P; cbn [foldM] in P; [injection P as <-; apply incl_refl|]. apply bind_Ok_inv in P. destruct P as (s1 & P1 & P2). apply char_w_map in P1. apply IH in P2. eapply incl_tran; eauto.
Qed.
Lemma levels_w_map : forall fuel legacy d h0 h1 H C W Q H' C' W', build_levels_w cw legacy fuel d h0 h1 H C W Q = Ok (H', C', W') -> (N.of_nat (last H 0%nat) < B)%N -> incl W W' /\ (N.of_nat (last H' 0%nat) < B)%N.
Proof using.
  induction fuel as [|fuel IH]; intros legacy d h0 h1 H C W Q H' C' W' P HL; destruct Q as [|q Q]; cbn [build_levels_w] in P; try discriminate P; try (injection P as <- <- <-; split; [apply incl_refl|exact HL]).
  apply bind_Ok_inv in P. destruct P as (E & _ & P). apply bind_Ok_inv in P. destruct P as (st & P1 & P). apply IH in P.
  - apply chars_w_map in P1. cbn [lv_map] in P1. destruct P as [P2 P3]. split; [eapply incl_tran; eauto|exact P3].
  - rewrite last_last, N2Nat.id. apply to_code_lt.
Qed.

(** all levels *)
Section Levels.
Variable K : list (list N).
Hypothesis HS : StronglySorted lex_lt K.
Hypothesis HBy : forall k, In k K -> Forall (fun c => (0 < c < 256)%N) k.
Lemma collect_facts : forall d H C W Ls E, Lev K d H C W Ls -> collect (queue_of K C Ls) d (nth d H 0) = Ok E ->
  (forall e, In e E -> (tc e < 256)%N /\ nth d H 0 + tid e < nth (S d) H 0) /\ NoDup (map fst E).
Proof using HS HBy.
  intros d H C W Ls E0 L CE0. set (h0 := nth d H 0) in *. set (h1 := nth (S d) H 0) in *.
  destruct (collect_ok K HS HBy C d h0 Ls [] (l_nodup _ _ _ _ _ _ L)) as (EP & CE & NDP & IP). { intros p X. apply (l_in _ _ _ _ _ _ L) in X. exact X. }
  cbn [app] in CE. unfold collect in CE0. rewrite CE in CE0. injection CE0 as <-.
  assert (RP : forall p c, In (p, c) EP -> length p = d /\ node K p /\ h0 <= posC C p /\ posC C p < h1).
  { intros p c X. apply IP in X. destruct X as [X _]. apply (l_in _ _ _ _ _ _ L) in X. destruct X as [X1 X2]. split; auto. split; auto. pose proof (l_rng _ _ _ _ _ _ L p) as R. rewrite X1 in R. apply R; auto. }
  split.
  - intros e X. apply in_map_iff in X. destruct X as ([p c] & <- & X). destruct (RP p c X) as (P1 & P2 & P3 & P4). unfold fe, tc, tid. cbn [fst snd]. split; [|lia]. apply IP in X. pose proof (edgeP_byte K HBy p c (proj2 X)). lia.
  - rewrite map_map. apply NoDup_map_in; auto. intros [p c] [q b] X Y Q. unfold fe in Q. cbn [fst snd] in Q. injection Q as -> Q. destruct (RP p b X) as (P1 & P2 & P3 & P4). destruct (RP q b Y) as (Q1 & Q2 & Q3 & Q4).
    f_equal. apply (l_inj _ _ _ _ _ _ L); auto; lia.
Qed.
Lemma levels_last : forall legacy fuel d h0 h1 H C W Q H' C' W', build_levels legacy fuel d h0 h1 H C W Q = Ok (H', C', W') -> last H 0 = h1 -> h1 <= last H' 0.
Proof using.
  intros legacy. induction fuel as [|fuel IH]; intros d h0 h1 H C W Q H' C' W' P HL; destruct Q as [|q Q]; cbn [build_levels] in P; try discriminate P; try (injection P as <- <- <-; lia).
  apply bind_Ok_inv in P. destruct P as (E & _ & P). apply bind_Ok_inv in P. destruct P as (st & P1 & P). apply IH in P; [lia|]. apply last_last.
Qed.
Lemma levels_same : forall legacy fuel d H C W Ls H' C' W', Lev K d H C W Ls -> (N.of_nat (nth (S d) H 0%nat) < B)%N ->
  build_levels legacy fuel d (nth d H 0) (nth (S d) H 0) H C W (queue_of K C Ls) = Ok (H', C', W') -> (N.of_nat (last H' 0%nat) < 2 ^ 63)%N ->
  (Forall (Forall (fun c => (c < B)%N)) C -> (N.of_nat (last H' 0%nat) < B)%N -> build_levels_w cw legacy fuel d (N.of_nat (nth d H 0)) (N.of_nat (nth (S d) H 0)) H C W (queue_of K C Ls) = Ok (H', C', W') /\ Forall (Forall (fun c => (c < B)%N)) C') /\
  ((B <= N.of_nat (last H' 0%nat))%N -> forall H2 C2 W2, build_levels_w cw legacy fuel d (N.of_nat (nth d H 0)) (N.of_nat (nth (S d) H 0)) H C W (queue_of K C Ls) = Ok (H2, C2, W2) ->
     (N.of_nat (last H2 0%nat) < B)%N /\ exists x c, In (x, c) W2 /\ (B <= N.of_nat (x + 1))%N).
Proof using Hcw HS HBy.
  intros legacy. induction fuel as [|fuel IH]; intros d H C W Ls H' C' W' L HB P M.
  - destruct Ls as [|p Ls]; cbn [queue_of map build_levels build_levels_w] in *; [|discriminate P]. injection P as <- <- <-. assert (LH := l_len _ _ _ _ _ _ L).
    assert (LA : last H 0 = nth (S d) H 0). { rewrite last_nth; [f_equal; lia|]. intros ->. cbn [length] in LH. lia. }
    rewrite LA in *. split; [auto|]. intros X. lia.
  - assert (LH := l_len _ _ _ _ _ _ L).
    assert (LA : last H 0 = nth (S d) H 0). { rewrite last_nth; [f_equal; lia|]. intros ->. cbn [length] in LH. lia. }
    destruct Ls as [|p Ls]. { cbn [queue_of map build_levels build_levels_w] in *. injection P as <- <- <-. rewrite LA in *. split; [auto|]. intros X. lia. }
    assert (NE : p :: Ls <> []) by discriminate. destruct (step_ok K HS HBy legacy d H C W _ L NE) as (E & st & Ls' & A1 & A2 & A3 & A4).
    set (h0 := nth d H 0) in *. set (h1 := nth (S d) H 0) in *. set (PL := p :: Ls) in *.
    assert (QN : queue_of K C PL <> []) by (unfold PL; cbn [queue_of map]; discriminate).
    cbn [build_levels] in P. rewrite match_nonempty in P by exact QN. rewrite A1 in P. cbn [bind] in P. rewrite A2 in P. cbn [bind] in P. rewrite A3 in P.
    cbn [build_levels_w]. rewrite match_nonempty by exact QN. rewrite Nnat.Nat2N.id, A1. cbn [bind].
    destruct (collect_facts d H C W PL E L A1) as [F1 F2]. fold h0 in F1. fold h1 in F1.
    assert (H01 : h0 <= h1) by (pose proof (l_inc _ _ _ _ _ _ L d ltac:(lia)); unfold h0, h1; lia).
    assert (LM := levels_last _ _ _ _ _ _ _ _ _ _ _ _ P (last_last _ _ _)).
    change {| lv_bv := bv_default; lv_max := 0; lv_row := repeat 0%N 256; lv_map := W; lv_queue := [] |} with (init W) in *.
    destruct (chars_same h0 h1 W E F1 F2 H01 HB legacy 256 st ltac:(lia) A2) as [S1 S2]. { lia. }
    rewrite S1. cbn [bind]. cbn [trunc lv_bv lv_max lv_row lv_map lv_queue].
    assert (MX : 0 < lv_max st). { pose proof (l_inc _ _ _ _ _ _ A4 (S d) ltac:(lia)) as X. rewrite (app_nth1 H) in X by lia. rewrite (app_nth2 H _ 0) in X by lia. replace (S (S d) - length H) with 0 in X by lia. cbn [nth] in X. lia. }
    assert (RL := row_lt h0 h1 W E F1 F2 H01 HB legacy st A2 MX).
    assert (N1 : nth (S d) (H ++ [h1 + lv_max st]) 0 = h1) by (rewrite app_nth1 by lia; reflexivity).
    assert (N2 : nth (S (S d)) (H ++ [h1 + lv_max st]) 0 = h1 + lv_max st). { rewrite app_nth2 by lia. replace (S (S d) - length H) with 0 by lia. reflexivity. }
    split.
    + intros FC HF. assert (SM : (N.of_nat h1 + N.of_nat (lv_max st) < B)%N) by lia. rewrite to_code_small by exact SM.
      assert (FR : Forall (fun c => (c < B)%N) (lv_row st)) by (eapply Forall_impl; [|exact RL]; cbv beta; intros; lia).
      pose proof (trunc_small st FR) as T. assert (TR : map (to_code cw) (lv_row st) = lv_row st) by (apply (f_equal lv_row) in T; exact T). rewrite TR.
      replace (N.to_nat (N.of_nat h1 + N.of_nat (lv_max st))) with (h1 + lv_max st) by lia. replace (N.of_nat h1 + N.of_nat (lv_max st))%N with (N.of_nat (h1 + lv_max st)) by lia. rewrite A3.
      destruct (IH (S d) (H ++ [h1 + lv_max st]) (C ++ [lv_row st]) (lv_map st) Ls' H' C' W' A4) as [I1 _]; rewrite ?N1, ?N2 in *; auto; [lia|].
      apply I1; auto. apply Forall_app. split; auto.
    + intros HF H2 C2 W2 P2. destruct (N.lt_ge_cases (N.of_nat h1 + N.of_nat (lv_max st)) B) as [SM|SM].
      * rewrite to_code_small in P2 by exact SM. assert (FR : Forall (fun c => (c < B)%N) (lv_row st)) by (eapply Forall_impl; [|exact RL]; cbv beta; intros; lia).
        pose proof (trunc_small st FR) as T. assert (TR : map (to_code cw) (lv_row st) = lv_row st) by (apply (f_equal lv_row) in T; exact T). rewrite TR in P2.
        replace (N.to_nat (N.of_nat h1 + N.of_nat (lv_max st))) with (h1 + lv_max st) in P2 by lia. replace (N.of_nat h1 + N.of_nat (lv_max st))%N with (N.of_nat (h1 + lv_max st)) in P2 by lia. rewrite A3 in P2.
        destruct (IH (S d) (H ++ [h1 + lv_max st]) (C ++ [lv_row st]) (lv_map st) Ls' H' C' W' A4) as [_ I2]; rewrite ?N1, ?N2 in *; auto; [lia|]. apply (I2 HF _ _ _ P2).
      * apply levels_w_map in P2; [|rewrite last_last, N2Nat.id; apply to_code_lt]. destruct P2 as [P2 P3]. split; auto. destruct S2 as [S2|S2]; [lia|]. apply in_map_iff in S2. destruct S2 as ([x c] & X1 & X2). cbn [fst] in X1. exists x, c. split; [apply P2; exact X2|]. lia.
Qed.
End Levels.
End W.

Lemma writes_lt : forall (W : list (nat * N)) s0 s, foldM (fun s w => lset s (fst w) (snd w)) W s0 = Ok s -> forall x c, In (x, c) W -> x < length s0.
Proof.
  induction W as [|w W IH]; intros s0 s P x c I; [destruct I|]. cbn [foldM] in P. apply bind_Ok_inv in P. destruct P as (s1 & P1 & P2). unfold lset in P1. destruct (Nat.ltb_spec (fst w) (length s0)) as [L|L]; [|discriminate]. injection P1 as <-.
  destruct I as [->|I]; [exact L|]. apply (IH _ _ P2) in I. rewrite upd_length in I. exact I.
Qed.
Theorem width_ok : forall cw legacy fuel K, In cw [1; 2; 4; 8] -> K <> [] -> StronglySorted lex_lt K -> (forall k, In k K -> Forall (fun c => (0 < c < 256)%N) k) -> (forall k, In k K -> length k < fuel) ->
  exists s L H C W, sm_build legacy fuel K = Ok s /\ Built K L H C W s /\ ((N.of_nat (length (sm_storage s)) < 2 ^ 63)%N ->
    ((N.of_nat (length (sm_storage s)) < 2 ^ N.of_nat (8 * cw))%N -> sm_build_w cw legacy fuel K = Ok s /\ Forall (Forall (fun c => (c < 2 ^ N.of_nat (8 * cw))%N)) C) /\
    ((2 ^ N.of_nat (8 * cw) <= N.of_nat (length (sm_storage s)))%N -> forall s', sm_build_w cw legacy fuel K <> Ok s')).
Proof.
  intros cw legacy fuel K Hcw HN HS HB HF. destruct (build_ok K HS HB HN legacy fuel HF) as (s & L & H & C & W & BS & BU). exists s, L, H, C, W. split; auto. split; auto. intros Sz.
  assert (L0 : Lev K 0 [0; 1] [] [(0, 94%N)] [[]]).
  { split; cbn [length]; auto.
    - intros i Hi. replace i with 0 by lia. cbn [nth]. lia.
    - constructor; [intros []|constructor].
    - intros p. split; [intros [<-|[]]; split; auto|intros [P _]; destruct p; [left; reflexivity|discriminate]]. apply root_in. exact HN.
    - intros p Hp _. destruct p; [|cbn [length] in Hp; lia]. cbn. lia.
    - intros p q Hpq Hp _ _ _. destruct p; [|cbn [length] in Hp; lia]. destruct q; [reflexivity|discriminate].
    - intros p c Hp. lia.
    - intros x c [X|[]]. injection X as <- <-. auto.
    - cbn. constructor; [intros []|constructor].
    - intros x c [X|[]]. injection X as <- <-. cbn. lia.
    - intros i Hi. lia. }
  assert (QE : queue_of K [] [[]] = [(0, K)]). { unfold queue_of. cbn [map posC]. do 2 f_equal. unfold sub. apply filter_all. intros k _. reflexivity. }
  unfold sm_build in BS. apply bind_Ok_inv in BS. destruct BS as (((H' & C') & W') & B1 & B2). apply bind_Ok_inv in B2. destruct B2 as (sto & B2 & B3). injection B3 as <-.
  pose proof (b_head _ _ _ _ _ _ BU) as EH. pose proof (b_codes _ _ _ _ _ _ BU) as EC. cbn [sm_head sm_codes] in EH, EC. subst H' C'.
  assert (SL : length sto = last H 0). { pose proof (b_len _ _ _ _ _ _ BU) as X. cbn [sm_storage] in X. rewrite X. pose proof (l_len _ _ _ _ _ _ (b_lev _ _ _ _ _ _ BU)) as LH. rewrite last_nth; [f_equal; lia|]. intros ->. cbn [length] in LH. lia. }
  cbn [sm_storage] in *. rewrite SL in *. rewrite <- QE in B1. change 1 with (nth 1 [0; 1] 0) in B1 at 1.
  assert (O1 : (N.of_nat 1 < 2 ^ N.of_nat (8 * cw))%N) by (destruct Hcw as [<-|[<-|[<-|[<-|[]]]]]; vm_compute; reflexivity).
  destruct (levels_same cw Hcw K HS HB legacy fuel 0 [0; 1] [] [(0, 94%N)] [[]] H C W' L0 O1 B1 Sz) as [X1 X2]. cbn [nth] in X1, X2. rewrite QE in X1, X2. split.
  - intros HF2. destruct (X1 (Forall_nil _) HF2) as [X3 X4]. split; auto. unfold sm_build_w. change 0%N with (N.of_nat 0) at 1. change 1%N with (N.of_nat 1) at 1. rewrite X3. cbn [bind]. rewrite B2. reflexivity.
  - intros HF2 s' P. unfold sm_build_w in P. change 0%N with (N.of_nat 0) in P at 1. change 1%N with (N.of_nat 1) in P at 1. apply bind_Ok_inv in P. destruct P as (((H2 & C2) & W2) & P1 & P2). apply bind_Ok_inv in P2. destruct P2 as (st2 & P2 & _).
    destruct (X2 HF2 _ _ _ P1) as (Y1 & x & c & Y2 & Y3). pose proof (writes_lt _ _ _ P2 x c Y2) as Y4. rewrite repeat_length in Y4. lia.
Qed.
