(** Proofs about InitShowModel.v *)
From Coq Require Import List NArith ZArith Arith Bool Lia.
From Verif Require Import Base Spec3 Spec18 InitArrayModel InitArrayProof InitShowSpec InitShowModel.
Import ListNotations.
Local Open Scope nat_scope.

Lemma mapM_all : forall A B (f : A -> res B) g l, (forall x, In x l -> f x = Ok (g x)) -> mapM f l = Ok (map g l).
Proof.
  intros A B f g. induction l as [|x l IH]; intros H; cbn [mapM map]; auto. rewrite H by now left. cbn [bind]. rewrite IH; auto. intros y I. apply H. now right.
Qed.
Lemma for_int_ok : forall A (f : nat -> res A) g n, (forall i, i < n -> f i = Ok (g i)) -> for_int n f = if (N.of_nat n <? 2 ^ 31)%N then Ok (map g (seq 0 n)) else UB.
Proof. intros A f g n H. unfold for_int. rewrite (mapM_all _ _ f g); [reflexivity|]. intros x I. apply in_seq in I. apply H. lia. Qed.
Lemma read_back : forall (l : list N), map (fun i => nth i l 0%N) (seq 0 (length l)) = l.
Proof.
  intros l. apply (nth_ext _ _ 0%N 0%N); [now rewrite map_length, seq_length|]. intros i Hi. rewrite map_length, seq_length in Hi.
  set (f := fun i => nth i l 0%N). rewrite (nth_indep (map f _) 0%N (f 0)) by now rewrite map_length, seq_length. rewrite map_nth, seq_nth by auto. reflexivity.
Qed.

Lemma never_set : forall A (v : A) i ops, Forall (ia_op_in i) ops -> ia_last v (rev ops) i = last_fill v ops.
Proof.
  intros A v i ops F. unfold last_fill. induction ops as [|o ops IH] using rev_ind; auto. apply Forall_app in F. destruct F as (F & Fo). apply Forall_inv in Fo.
  rewrite rev_app_distr, fold_left_app. cbn [rev app fold_left]. destruct o; cbn [ia_last]; auto. cbn [ia_op_in] in Fo. destruct (Nat.eqb_spec i i0); [lia|]. now apply IH.
Qed.

Lemma shown : forall w next size mem v ops, (N.of_nat (kActualSize size) <= 2 ^ w)%N -> (forall k, 2 * k < kActualSize size -> next (N.of_nat (2 * k)) = Ok (2 * k + 1)) ->
  length mem = kActualSize size -> Forall (ia_op_in size) ops ->
  exists s, ia_run w size mem v ops = Ok s /\ length (ia_a s) = kActualSize size /\
    ia_print next size s = if (N.of_nat (kActualSize size) <? 2 ^ 31)%N
      then Ok (map (ia_last v (rev ops)) (seq 0 size) ++ repeat (last_fill v ops) (size mod 2), pairs_written (rev ops) (kActualSize size / 2), ia_a s) else UB.
Proof.
  intros w next size mem v ops Hn Hx L F. assert (Ls : size <= kActualSize size) by (unfold kActualSize; lia).
  destruct (ia_history w next size Hn mem v ops L) as (s & E & I). { eapply Forall_impl; [|exact F]. intros [|]; simpl; auto. lia. }
  exists s. split; auto. assert (G : forall i, i < kActualSize size -> ia_get next size s i = Ok (ia_last v (rev ops) i)).
  { intros i Hi. eapply holds_get; eauto. }
  destruct I as (x & B & R & O & H & _ & C). change (count size (pair_written (rev ops))) with (pairs_written (rev ops) (nb size)) in C. change (nb size) with (kActualSize size / 2) in C.
  assert (Eb : ia_b s = B) by apply H. assert (La : length (ia_a s) = kActualSize size) by apply H. split; auto.
  unfold ia_print. rewrite (for_int_ok _ _ _ _ G). rewrite (for_int_ok _ (lget (ia_a s)) (fun i => nth i (ia_a s) 0%N)) by (intros i Hi; apply lget_nth; lia).
  destruct (N.ltb_spec (N.of_nat (kActualSize size)) (2 ^ 31)); [|reflexivity]. cbn [bind]. rewrite <- La, read_back, La, Eb, C. f_equal. f_equal. f_equal. f_equal.
  unfold kActualSize. rewrite seq_app, map_app. f_equal. cbn [Nat.add]. pose proof (never_set _ v size ops F) as Ns.
  assert (D : size mod 2 = 0 \/ size mod 2 = 1) by (pose proof (Nat.mod_upper_bound size 2 ltac:(lia)); lia). destruct D as [D|D]; rewrite D; cbn [seq map repeat]; auto. now rewrite Ns.
Qed.

Lemma next_plain : forall w size, in_place_case w size -> forall k, 2 * k < kActualSize size -> next_unsigned w (N.of_nat (2 * k)) = Ok (2 * k + 1).
Proof.
  intros w size (Hd & Hn) k Hk. unfold next_unsigned. destruct (N.ltb_spec w 32).
  - f_equal. lia.
  - assert ((N.of_nat (2 * k) + 1 < 2 ^ w)%N).
    { assert (N.of_nat (2 * k) + 1 <> 2 ^ w)%N; [|lia]. intros X. replace w with (N.succ (w - 1)) in X by lia. rewrite N.pow_succ_r' in X. lia. }
    rewrite N.mod_small by auto. f_equal. lia.
Qed.
Lemma shown_unsigned : forall w size mem v ops, in_place_case w size -> length mem = kActualSize size -> Forall (ia_op_in size) ops ->
  exists s, ia_run w size mem v ops = Ok s /\ length (ia_a s) = kActualSize size /\
    ia_print (next_unsigned w) size s = if (N.of_nat (kActualSize size) <? 2 ^ 31)%N
      then Ok (map (ia_last v (rev ops)) (seq 0 size) ++ repeat (last_fill v ops) (size mod 2), pairs_written (rev ops) (kActualSize size / 2), ia_a s) else UB.
Proof. intros w size mem v ops C L F. apply shown; auto; [apply C|now apply next_plain]. Qed.
Lemma shown_signed : forall w size mem v ops, (1 < w)%N -> in_place_case (w - 1) size -> length mem = kActualSize size -> Forall (ia_op_in size) ops ->
  exists s, ia_run w size mem v ops = Ok s /\ length (ia_a s) = kActualSize size /\
    ia_print (next_signed w) size s = if (N.of_nat (kActualSize size) <? 2 ^ 31)%N
      then Ok (map (ia_last v (rev ops)) (seq 0 size) ++ repeat (last_fill v ops) (size mod 2), pairs_written (rev ops) (kActualSize size / 2), ia_a s) else UB.
Proof.
  intros w size mem v ops Hw (Hd & Hn) L F. assert (2 ^ (w - 1) <= 2 ^ w)%N by (apply N.pow_le_mono_r; lia). apply shown; auto; [lia|].
  intros k Hk. unfold next_signed. destruct (N.ltb_spec (N.of_nat (2 * k)) (2 ^ (w - 1))); [f_equal; lia|lia].
Qed.
