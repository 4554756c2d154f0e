(** A character with 2^31 - 1 or more smaller ones in the string gets a bucket that starts outside the array. *)
From Coq Require Import List NArith ZArith Arith Bool Lia.
From Verif Require Import Base Spec Spec6 Spec26 SignedModel FitVectorModel LimitModel LimitProof SuffixModel SuffixIntModel SaisPut SaisPublic SaisCost KmpProof SuffixInt.
Import ListNotations.
Local Open Scope nat_scope.

(** undefined or aborted *)
Definition fails {A} (r : res A) : Prop := r = UB \/ r = Throw.
Lemma fails_bind : forall A B (r : res A) (f : A -> res B), fails r -> fails (bind r f).
Proof. intros A B r f [-> | ->]; [left|right]; reflexivity. Qed.

Lemma place_int_nth : forall counts a c, c < length counts -> exists b, nth_error (place_buckets_int counts (to_int a)) c = Some b /\
  bk_index b = N.to_nat (through_int (a + N.of_nat (list_sum (firstn c counts)))) /\ bk_l b = bk_index b /\ bk_s b = s_pos (N.of_nat (bk_index b)) (bk_count b).
Proof.
  induction counts as [|n counts IH]; intros a c H; [cbn [length] in H; lia|]. destruct c as [|c]; cbn [place_buckets_int nth_error].
  - eexists. split; [reflexivity|]. cbn [bk_index bk_l bk_s bk_count firstn]. change (list_sum []) with 0. rewrite N.add_0_r, to_int_word, N2Nat.id. auto.
  - rewrite to_int_add. cbn [length] in H. destruct (IH (a + N.of_nat n)%N c ltac:(lia)) as (b & E & I & R). exists b. split; [exact E|]. split; [|exact R]. rewrite I. do 2 f_equal.
    cbn [firstn]. change (list_sum (n :: firstn c counts)) with (n + list_sum (firstn c counts)). lia.
Qed.
Lemma sum_first_upd : forall l i c, i < length l -> list_sum (firstn c (upd l i (S (nth i l 0)))) = list_sum (firstn c l) + (if i <? c then 1 else 0).
Proof.
  induction l as [|x l IH]; intros i c H; [cbn [length] in H; lia|]. destruct c as [|c]; [destruct i; reflexivity|]. destruct i as [|i]; cbn [upd nth firstn].
  - change (list_sum (S x :: firstn c l)) with (S x + list_sum (firstn c l)). change (list_sum (x :: firstn c l)) with (x + list_sum (firstn c l)). cbn [Nat.ltb Nat.leb]. lia.
  - cbn [length] in H. change (list_sum (x :: ?l)) with (x + list_sum l). change (list_sum (x :: firstn c (upd l i (S (nth i l 0))))) with (x + list_sum (firstn c (upd l i (S (nth i l 0))))).
    rewrite IH by lia. change (list_sum (x :: firstn c l)) with (x + list_sum (firstn c l)). replace (S i <? S c) with (i <? c) by reflexivity. lia.
Qed.
Lemma counts_below : forall c str counts counts', foldM (fun l c => do n <- cget l c; cset l c (S n)) str counts = Ok counts' ->
  length counts' = length counts /\ list_sum (firstn (N.to_nat c) counts') = list_sum (firstn (N.to_nat c) counts) + count_if (fun x => (x <? c)%N) str.
Proof.
  intros c. induction str as [|d str IH]; intros counts counts' H; cbn [foldM] in H; [injection H as <-; split; auto|].
  apply bind_Ok_inv in H as (l & E & H). apply bind_Ok_inv in E as (n & E1 & E2). unfold cget in E1. unfold cset in E2. destruct (N.ltb_spec d (N.of_nat (length counts))) as [B|]; [|discriminate].
  rewrite (lget_nth _ _ _ 0) in E1 by lia. injection E1 as <-. rewrite lset_Ok in E2 by lia. injection E2 as <-.
  destruct (IH _ _ H) as [L G]. rewrite upd_length in L. split; auto. rewrite G, sum_first_upd by lia. unfold count_if. cbn [filter].
  destruct (Nat.ltb_spec (N.to_nat d) (N.to_nat c)), (N.ltb_spec d c); cbn [length]; lia.
Qed.
Lemma count_plain : forall str counts, (exists counts', foldM (fun l c => do n <- cget l c; cset l c (S n)) str counts = Ok counts') \/ foldM (fun l c => do n <- cget l c; cset l c (S n)) str counts = UB.
Proof.
  induction str as [|d str IH]; intros counts; [left; eexists; reflexivity|]. cbn [foldM].
  assert (G : (do n <- cget counts d; cset counts d (S n)) = if (d <? N.of_nat (length counts))%N then Ok (upd counts (N.to_nat d) (S (nth (N.to_nat d) counts 0))) else UB).
  { unfold cget, cset. destruct (N.ltb_spec d (N.of_nat (length counts))) as [B|]; [|reflexivity]. rewrite (lget_nth _ _ _ 0) by lia. cbn [bind]. now rewrite lset_Ok by lia. }
  rewrite G. destruct (_ <? _)%N; [|right; reflexivity]. cbn [bind]. apply IH.
Qed.

(** a bucket that starts far outside *)
Definition lost (n : nat) (b : bucket) : Prop := n <= bk_index b /\ bk_l b = bk_index b /\ bk_s b = s_pos (N.of_nat (bk_index b)) (bk_count b).
Lemma lost_put : forall n bs sa c id b, lost n b -> length sa <= n -> cget bs c = Ok b -> fails (put_bucket bs sa true c id).
Proof.
  intros n bs sa c id b (I & L & S) H G. unfold put_bucket. rewrite G. cbn [bind]. destruct (bk_full b) eqn:F; [right; reflexivity|]. left.
  destruct (Z.ltb_spec (bk_s b) 0) as [|P]; [reflexivity|]. unfold bk_full in F. apply orb_false_iff in F as [_ F]. apply andb_false_iff in F as [F|F]; [apply Z.leb_gt in F; lia|]. apply Z.ltb_ge in F.
  unfold lset. destruct (Nat.ltb_spec (Z.to_nat (bk_s b)) (length sa)); [lia|reflexivity].
Qed.
Lemma put_other : forall bs sa sl c id bs' sa' pos d, put_bucket bs sa sl c id = Ok (bs', sa', pos) -> c <> d -> length sa' = length sa /\ cget bs' d = cget bs d.
Proof.
  intros bs sa sl c id bs' sa' pos d E N. unfold put_bucket in E. apply bind_Ok_inv in E as (b & E1 & E). destruct (bk_full b); [discriminate|].
  assert (G : forall x bs1, cset bs c x = Ok bs1 -> cget bs1 d = cget bs d).
  { intros x bs1 Q. unfold cset in Q. destruct (N.ltb_spec c (N.of_nat (length bs))); [|discriminate]. rewrite lset_Ok in Q by lia. injection Q as <-. unfold cget. rewrite upd_length. destruct (N.ltb_spec d (N.of_nat (length bs))); auto.
    rewrite (lget_nth _ _ _ b) by (rewrite upd_length; lia). rewrite (lget_nth _ _ _ b) by lia. rewrite nth_upd. destruct (Nat.eqb_spec (N.to_nat d) (N.to_nat c)); [lia|]. reflexivity. }
  assert (K : forall p (x : option nat) sa1, lset sa p x = Ok sa1 -> length sa1 = length sa) by (intros p x sa1 Q; unfold lset in Q; destruct (p <? length sa); [injection Q as <-; apply upd_length|discriminate]).
  destruct sl; [destruct (bk_s b <? 0)%Z; [discriminate|]; cbv zeta in E|]; apply bind_Ok_inv in E as (sa1 & E2 & E); apply bind_Ok_inv in E as (bs1 & E3 & E); injection E as <- <- _; split; eauto.
Qed.
Lemma put_plain : forall bs sa sl c id, (exists r, put_bucket bs sa sl c id = Ok r) \/ fails (put_bucket bs sa sl c id).
Proof.
  intros bs sa sl c id. unfold put_bucket, cget, cset, lget, lset. destruct (_ <? _)%N; [|right; left; reflexivity]. destruct (nth_error bs (N.to_nat c)); [|right; left; reflexivity]. cbn [bind].
  destruct (bk_full b); [right; right; reflexivity|]. destruct sl; [destruct (bk_s b <? 0)%Z; [right; left; reflexivity|]|];
  (destruct (_ <? length sa); [|right; left; reflexivity]); cbn [bind]; (destruct (_ <? length bs); [|right; left; reflexivity]); cbn [bind]; left; eexists; reflexivity.
Qed.
Lemma lost_fold : forall n str lms c b i id order, lost n b -> nth_error lms i = Some id -> nth_error str id = Some c -> In i order ->
  forall bs sa poses, length sa <= n -> cget bs c = Ok b -> fails (foldM (put_lms str lms) order (bs, sa, poses)).
Proof.
  intros n str lms c b i id order HL HI HC. induction order as [|j order IH]; intros I bs sa poses L G; [destruct I|]. cbn [foldM].
  assert (D : forall x, (exists r, lget lms x = Ok r) \/ lget lms x = UB) by (intros x; unfold lget; destruct (nth_error lms x); [left; eexists; reflexivity|right; reflexivity]).
  destruct (D j) as [[idj EJ]|EJ]; [|left; unfold put_lms; rewrite EJ; reflexivity].
  destruct (nth_error str idj) as [cj|] eqn:CJ; [|left; unfold put_lms; rewrite EJ; cbn [bind]; unfold lget; rewrite CJ; reflexivity].
  assert (P : put_lms str lms (bs, sa, poses) j = do r <- put_bucket bs sa true cj idj; let '(bs, sa, pos) := r in do poses <- lset poses j pos; Ok (bs, sa, poses)).
  { unfold put_lms. rewrite EJ. cbn [bind]. unfold lget. rewrite CJ. reflexivity. }
  rewrite P. clear P. destruct (N.eq_dec cj c) as [->|NC].
  - apply fails_bind, fails_bind. eapply lost_put; eauto.
  - destruct (put_plain bs sa true cj idj) as [[[[bs' sa'] pos] E]|F]; [|apply fails_bind, fails_bind; exact F]. rewrite E. cbn [bind]. destruct (put_other _ _ _ _ _ _ _ _ c E NC) as [L' G'].
    unfold lset. destruct (j <? length poses); [|left; reflexivity]. cbn [bind]. apply IH; [|lia|congruence].
    destruct I as [->|I]; auto. exfalso. unfold lget in EJ. rewrite HI in EJ. injection EJ as <-. congruence.
Qed.
Lemma order_long : forall k, (N.of_nat k <= 2 ^ 31)%N -> first_order k = rev (seq 0 k).
Proof.
  intros k H. unfold first_order. f_equal. f_equal. destruct k as [|k]; [reflexivity|].
  assert (E : wsub (N.of_nat (S k)) 1 = N.of_nat k).
  { unfold wsub. assert (2 ^ 31 < 2 ^ 64)%N by reflexivity. replace (N.of_nat (S k) + 2 ^ 64 - 1)%N with (N.of_nat k + 1 * 2 ^ 64)%N by lia. rewrite N.mod_add by discriminate. apply N.mod_small. lia. }
  rewrite E, int_small by lia. lia.
Qed.
Lemma sais_str_ascii : forall s, Forall (fun c => (0 < c < 128)%N) s -> sais_str s = s ++ [0%N].
Proof.
  intros s H. unfold sais_str. f_equal. rewrite <- (map_id s) at 2. apply map_ext_in. intros c I. apply (proj1 (Forall_forall _ _) H) in I. destruct (N.ltb_spec c 128); lia.
Qed.
Lemma long_fails : forall s p, Forall (fun c => (0 < c < 128)%N) s -> (N.of_nat (length s) < 2 ^ 32)%N -> valley s p -> p < length s ->
  (2 ^ 31 <= N.of_nat (count_if (fun x => x <? nth p s 0)%N s) + 1)%N -> suffix_array_int s = UB \/ suffix_array_int s = Throw.
Proof.
  intros s p HB HL HP PL HC. change (fails (suffix_array_int s)). unfold suffix_array_int, build_sa_int. apply fails_bind, fails_bind. cbn [sais_int]. cbv zeta. rewrite sais_str_ascii by auto. set (c := nth p s 0%N) in *.
  assert (NE : s <> []) by (destruct s; [cbn [length] in PL; lia|discriminate]).
  assert (PS : positive s) by (eapply Forall_impl; [|exact HB]; cbn; intros; lia).
  assert (HV : valid (s ++ [0%N]) 255) by (apply valid_of; auto; eapply Forall_impl; [|exact HB]; cbn; intros; lia).
  apply (proj1 (valley_lms s 255 PS HV p)) in HP.
  set (str := s ++ [0%N]) in *. assert (LS : length str = S (length s)) by (unfold str; rewrite app_length; cbn [length]; lia).
  set (lms := find_lms (classified str)).
  assert (LM : (N.of_nat (length lms) <= 2 ^ 31)%N).
  { pose proof (lms_half (classified str)) as Q. fold lms in Q. rewrite classified_len in Q. change (2 ^ 31)%N with 2147483648%N. change (2 ^ 32)%N with 4294967296%N in HL. lia. }
  assert (IM : In p lms). { unfold lms, find_lms. apply filter_In. split; [|exact HP]. apply in_seq. rewrite classified_len. destruct p; [discriminate HP|]. lia. }
  apply In_nth_error in IM as (i & IM).
  assert (Hc : (0 < c < 128)%N) by (apply (proj1 (Forall_forall _ _) HB), nth_In; auto).
  assert (SC : nth_error str p = Some c) by (unfold str; rewrite nth_error_app1 by auto; apply nth_error_nth'; auto).
  rewrite order_long by auto. apply fails_bind. unfold induce_int, make_buckets_int.
  destruct (count_plain str (repeat 0 256)) as [[counts E]|E]; [|apply fails_bind; left; unfold count_chars; rewrite E; reflexivity].
  unfold count_chars. rewrite E. cbn [bind]. destruct (counts_below c _ _ _ E) as [L K]. rewrite repeat_length in L.
  change 0%Z with (to_int 0). destruct (place_int_nth counts 0%N (N.to_nat c) ltac:(lia)) as (b & B1 & B2 & B3 & B4).
  apply fails_bind. eapply lost_fold with (n := length str) (c := c) (b := b) (i := i) (id := p).
  - split; [|split; auto]. rewrite B2, K. assert (Z0 : forall k m, list_sum (firstn k (repeat 0 m)) = 0) by (induction k; intros [|m]; cbn [repeat firstn]; auto; apply IHk). rewrite Z0. cbn [Nat.add].
    assert (Q : count_if (fun x => (x <? c)%N) str = count_if (fun x => (x <? c)%N) s + 1).
    { unfold str, count_if. rewrite filter_app, app_length. cbn [filter]. destruct (N.ltb_spec 0 c); [reflexivity|lia]. }
    rewrite Q. assert (U : count_if (fun x => (x <? c)%N) s < length s).
    { apply Nat.le_lt_trans with (length (filter (fun x => (x <? c)%N) (firstn p s)) + (length s - S p)).
      - unfold count_if. rewrite <- (firstn_skipn p s) at 1. rewrite filter_app, app_length. apply Nat.add_le_mono_l. rewrite (skipn_cons' s p PL). fold c. cbn [filter]. rewrite N.ltb_irrefl.
        rewrite <- skipn_length. apply count_if_le.
      - pose proof (count_if_le _ (fun x => (x <? c)%N) (firstn p s)) as W. unfold count_if in W. rewrite firstn_length in W. lia. }
    unfold through_int. change (2 ^ 32)%N with 4294967296%N in *. change (2 ^ 31)%N with 2147483648%N in *. change (2 ^ 64)%N with 18446744073709551616%N. rewrite N.mod_small by lia.
    match goal with |- context [(?a <? ?b)%N] => destruct (N.ltb_spec a b) end; lia.
  - exact IM.
  - exact SC.
  - apply in_rev. rewrite rev_involutive. apply in_seq. assert (nth_error lms i <> None) by congruence. apply nth_error_Some in H. lia.
  - rewrite repeat_length. auto.
  - unfold cget. assert (LP : forall l z, length (place_buckets_int l z) = length l) by (induction l; intros; cbn [place_buckets_int length]; auto). rewrite LP, L. destruct (N.ltb_spec c (N.of_nat 256)); [|lia]. unfold lget. rewrite B1. reflexivity.
Qed.

(** witness: 2^31 times the letter a, then c b c *)
Definition long_run (m : nat) : list N := repeat 97%N m ++ [99; 98; 99]%N.
Lemma long_run_fits : forall m, Forall (fun c => (0 < c < 128)%N) (long_run m) /\ valley (long_run m) (m + 1) /\ m + 1 < length (long_run m) /\
  length (long_run m) = m + 3 /\ count_if (fun x => x <? nth (m + 1) (long_run m) 0)%N (long_run m) = m.
Proof.
  intros m. unfold long_run.
  assert (L : length (repeat 97%N m ++ [99; 98; 99]%N) = m + 3) by (rewrite app_length, repeat_length; reflexivity).
  assert (K : forall k, skipn (m + k) (repeat 97%N m ++ [99; 98; 99]%N) = skipn k [99; 98; 99]%N).
  { intros k. rewrite skipn_app, repeat_length. replace (m + k - m) with k by lia. rewrite skipn_all2 by (rewrite repeat_length; lia). reflexivity. }
  split; [apply Forall_app; split; [apply Forall_forall; intros x X; apply repeat_spec in X; subst; lia|repeat (constructor; [lia|]); constructor]|].
  split; [|split; [lia|split; [exact L|]]].
  - split; [lia|]. split; [|intros _]; [replace (m + 1 - 1) with (m + 0) by lia|replace (S (m + 1)) with (m + 2) by lia]; rewrite !K; cbn; lia.
  - rewrite app_nth2; rewrite repeat_length; [|lia]. replace (m + 1 - m) with 1 by lia. cbn [nth]. unfold count_if. rewrite filter_app, app_length. cbn [filter N.ltb N.compare Pos.compare Pos.compare_cont length].
    assert (Q : filter (fun x => (x <? 98)%N) (repeat 97%N m) = repeat 97%N m) by (clear; induction m as [|m IH]; [reflexivity|]; cbn [repeat filter]; change (97 <? 98)%N with true; cbv iota; now rewrite IH).
    rewrite Q, repeat_length. lia.
Qed.
