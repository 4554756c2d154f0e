(** The trie with every size type, every case. *)
From Coq Require Import List NArith Arith Bool Lia.
From Verif Require Import Base Spec5 Spec16 TrieModel TrieProof.
Import ListNotations.
Local Open Scope nat_scope.

Section Items.
Context {A : Type}.
Implicit Types (ops : list (list N * A)) (t : trie A).
Lemma in_last_item : forall ops k x, In (k, x) ops -> last_item ops k <> None.
Proof.
  intros ops k x H. unfold last_item. destruct (find _ _) as [z|] eqn:F; [discriminate|]. apply in_rev in H. apply (find_none _ _ F) in H. cbn [fst] in H.
  destruct (list_eq_dec N.eq_dec k k); congruence.
Qed.
Lemma last_item_some : forall ops k x, last_item ops k = Some x -> was_inserted ops k.
Proof. intros ops k x H. exists x. apply last_item_key. exact H. Qed.
Lemma fits_64 : forall st n, fits st n -> (N.of_nat n < 2 ^ 64 - 1)%N.
Proof.
  intros st n H. unfold fits in H. change (2 ^ 64 - 1)%N with 18446744073709551615%N in *. change (2 ^ 32 - 1)%N with 4294967295%N in H. change (2 ^ 31 - 1)%N with 2147483647%N in H. destruct st; lia.
Qed.
Lemma prefix_zero : forall ops k, key_prefix ops (k ++ [0%N]) -> last_item ops k = None -> zero_continues ops k.
Proof.
  intros ops k [H|(q & x & r & Hin & H)] LN; [destruct k; discriminate|]. destruct r as [|c r] using rev_ind.
  - rewrite app_nil_r in H. apply app_inj_tail in H. destruct H as [-> _]. destruct (in_last_item _ _ _ Hin LN).
  - clear IHr. rewrite app_assoc in H. apply app_inj_tail in H. destruct H as [-> _]. exists r, x. rewrite <- app_assoc in Hin. exact Hin.
Qed.
Lemma zero_prefix : forall ops k, zero_continues ops k -> key_prefix ops (k ++ [0%N]).
Proof. intros ops k (r & x & H). right. exists (k ++ 0%N :: r), x, (r ++ [0%N]). split; auto. rewrite <- !app_assoc. reflexivity. Qed.
(** the number an absent item has, in the storage of a trie in which the items fit *)
Lemma traverse_every : forall st ops t P k, Inv ops t P -> fits st (length (tr_store t)) ->
  (was_inserted ops k -> tr_traverse st t k = Ok (last_item ops k)) /\
  (~ was_inserted ops k -> ~ zero_continues ops k -> tr_traverse st t k = Ok None) /\
  (~ was_inserted ops k -> zero_continues ops k -> tr_traverse st t k = if match st with SizeT => true | _ => false end then Ok None else UB).
Proof.
  intros st ops t P k I Fit. pose proof (iv_str _ _ _ I) as S. pose proof (fits_64 _ _ Fit) as B. unfold tr_traverse, tr_traverse_index.
  assert (NP : ~ In (k ++ [0%N]) P -> ~ was_inserted ops k /\ ~ zero_continues ops k).
  { intros H. split; intros Q; apply H; apply (iv_pref _ _ _ I); [|apply zero_prefix; exact Q]. destruct Q as (y & Q). right. exists k, y, []. rewrite app_nil_r. auto. }
  destruct (walk_ok _ _ S k 0 [] (st_root _ _ S)) as [(i & -> & Ei)|[-> Ei]]; cbn [bind app] in *.
  2: { rewrite N.eqb_refl. destruct NP as [N1 N2]. { intros H. apply Ei. eapply st_closed; eauto. } tauto. }
  pose proof (nth_error_lt _ _ _ _ Ei) as Li. rewrite (st_len _ _ S) in Li. destruct (nth_error_ex _ _ _ Li) as (n & En). rewrite (lget_nth_error _ _ _ _ En). cbn [bind].
  destruct (target_spec _ P S i n k 0%N En Ei) as [[T1 T2]|[T1 T2]].
  2: { rewrite T1, Nat.eqb_refl. cbn [bind]. rewrite N.eqb_refl. destruct (NP T2). tauto. }
  destruct (Nat.eqb_spec (nd_target n 0) 0); [congruence|].
  pose proof (nth_error_lt _ _ _ _ T2) as Lj. rewrite (st_len _ _ S) in Lj. destruct (nth_error_ex _ _ _ Lj) as (m & Em). rewrite (lget_nth_error _ _ _ _ Em). cbn [bind].
  assert (Hm : item_of (tr_nodes t) (nd_target n 0) = nd_item m) by (unfold item_of; rewrite Em; reflexivity).
  unfold nd_item_index. destruct (nd_item m) as [y|] eqn:Ny.
  - destruct (iv_some _ _ _ I _ _ _ T2 Hm) as (k' & Ek & Lk & Sk). apply app_inj_tail in Ek. destruct Ek as [<- _].
    assert (Ly : y < length (tr_store t)) by (apply nth_error_Some; congruence).
    assert (W : was_inserted ops k). { destruct (last_item ops k) as [z|] eqn:Q; [|congruence]. eapply last_item_some; eauto. }
    destruct (N.eqb_spec (N.of_nat y) (2 ^ 64 - 1)); [lia|]. destruct (N.ltb_spec (N.of_nat y) (N.of_nat (length (tr_store t)))); [|lia].
    rewrite Nnat.Nat2N.id. rewrite <- Sk. destruct (nth_error (tr_store t) y) as [z|] eqn:Ez; [|congruence]. rewrite (lget_nth_error _ _ _ _ Ez). cbn [bind]. tauto.
  - assert (LN : last_item ops k = None) by (eapply iv_none; eauto).
    assert (W : ~ was_inserted ops k) by (intros (x & Q); apply (in_last_item _ _ _ Q LN)).
    assert (Z : zero_continues ops k). { apply prefix_zero; auto. apply (iv_pref _ _ _ I). eapply nth_error_In; eauto. }
    unfold fits in Fit. split; [tauto|]. split; [tauto|]. intros _ _. destruct st.
    + rewrite N.eqb_refl. reflexivity.
    + destruct (N.eqb_spec (2 ^ 32 - 1) (2 ^ 64 - 1)); [discriminate|]. destruct (N.ltb_spec (2 ^ 32 - 1) (N.of_nat (length (tr_store t)))); [lia|reflexivity].
    + destruct (N.eqb_spec (2 ^ 31 - 1) (2 ^ 64 - 1)); [discriminate|]. destruct (N.ltb_spec (2 ^ 31 - 1) (N.of_nat (length (tr_store t)))); [lia|reflexivity].
Qed.
Lemma fits_le : forall st m n, m <= n -> fits st n -> fits st m.
Proof. intros st m n L H. unfold fits in *. lia. Qed.
Theorem trie_every : forall st ops, fits st (length ops) -> exists t, tr_run ops = Ok t /\ forall k,
  (was_inserted ops k -> tr_traverse st t k = Ok (last_item ops k)) /\
  (~ was_inserted ops k -> ~ zero_continues ops k -> tr_traverse st t k = Ok None) /\
  (~ was_inserted ops k -> zero_continues ops k -> tr_traverse st t k = match st with SizeT => Ok None | _ => UB end).
Proof.
  intros st ops B. destruct (run_ok ops) as (t & P & E & I). exists t. split; auto. intros k.
  destruct (traverse_every st ops t P k I (fits_le _ _ _ (store_le _ _ E) B)) as (H1 & H2 & H3). split; auto. split; auto. intros Q1 Q2. rewrite H3 by auto. destruct st; reflexivity.
Qed.
Theorem terminal_every : forall st ops t, tr_run ops = Ok t -> fits st (length ops) -> forall p, key_prefix ops p ->
  exists i n, tr_walk (tr_nodes t) 0 p = Ok (Some i) /\ nth_error (tr_nodes t) i = Some n /\
    (nd_terminal st n = true <-> st = Int32 \/ exists k, was_inserted ops k /\ p = k ++ [0%N]).
Proof.
  intros st ops t E Fit p Hp. destruct (terminal_ok ops t E (fits_64 _ _ Fit) p Hp) as (i & n & W & En & T). exists i, n. split; auto. split; auto.
  assert (T' : nd_terminal SizeT n = true <-> exists k, was_inserted ops k /\ p = k ++ [0%N]).
  { rewrite T. split; [intros (k & x & Q & ->); exists k; split; auto; exists x; auto|intros (k & (x & Q) & ->); eauto]. }
  destruct (run_ok ops) as (t0 & P & E0 & I). rewrite E in E0. injection E0 as <-.
  assert (Fit' := fits_le _ _ _ (store_le _ _ E) Fit).
  assert (Hy : forall y, nd_item n = Some y -> y < length (tr_store t)).
  { intros y Ny. pose proof (iv_str _ _ _ I) as S. assert (Hm : item_of (tr_nodes t) i = Some y) by (unfold item_of; rewrite En; exact Ny).
    assert (Li : i < length (tr_nodes t)) by (apply nth_error_Some; congruence). rewrite <- (st_len _ _ S) in Li. destruct (nth_error_ex _ _ _ Li) as (q & Eq).
    destruct (iv_some _ _ _ I _ _ _ Eq Hm) as (k & _ & Lk & Sk). apply nth_error_Some. congruence. }
  destruct st.
  - rewrite T'. split; auto. intros [H|H]; [discriminate|auto].
  - assert (EQ : nd_terminal UInt32 n = nd_terminal SizeT n).
    { pose proof (fits_64 _ _ Fit') as B. unfold nd_terminal, nd_item_index, fits in *. destruct (nd_item n) as [y|]; [|rewrite !N.eqb_refl; reflexivity]. specialize (Hy y eq_refl).
      destruct (N.eqb_spec (N.of_nat y) (2 ^ 32 - 1)); [lia|]. destruct (N.eqb_spec (N.of_nat y) (2 ^ 64 - 1)); [lia|]. reflexivity. }
    rewrite EQ, T'. split; auto. intros [H|H]; [discriminate|auto].
  - cbn [nd_terminal]. tauto.
Qed.
End Items.
