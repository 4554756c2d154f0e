(** Proofs about TrieWidthModel: what happens to the first key for which the numbers do not suffice. *)
From Coq Require Import List NArith ZArith Arith Bool Lia Sorted.
From Verif Require Import Base Spec5 Spec16 Spec27 TrieModel TrieProof TrieExact TrieWidthModel TrieWidth.
Import ListNotations.
Local Open Scope nat_scope.

Lemma find_added : forall l c z, find (fun e : N * Z => (fst e =? c)%N) l = None -> find (fun e => (fst e =? c)%N) (wedge_add l c z) = Some (c, z).
Proof.
  induction l as [|[d i] l IH]; intros c z H; cbn [wedge_add find fst] in *. { rewrite N.eqb_refl. reflexivity. }
  destruct (N.eqb_spec d c) as [->|D]; [discriminate|]. destruct (c <? d)%N. { cbn [find fst]. rewrite N.eqb_refl. reflexivity. }
  destruct (N.eqb_spec c d); [congruence|]. cbn [find fst]. destruct (N.eqb_spec d c); [congruence|]. auto.
Qed.
Lemma find_emb : forall l c, find (fun e : N * nat => (fst e =? c)%N) l = None -> find (fun e : N * Z => (fst e =? c)%N) (map eedge l) = None.
Proof. induction l as [|[d i] l IH]; intros c H; cbn [map eedge find fst] in *; auto. destruct (d =? c)%N; [discriminate|auto]. Qed.
Lemma upd_last : forall (B : Type) (l : list B) x y, upd (l ++ [x]) (length l) y = l ++ [y].
Proof. induction l; intros; cbn [app upd length]; auto. rewrite IHl. reflexivity. Qed.
Lemma upd_app : forall (B : Type) (l m : list B) i y, upd (l ++ m) (length l + i) y = l ++ upd m i y.
Proof. induction l; intros; cbn [app upd length Nat.add]; auto. rewrite IHl. reflexivity. Qed.
(** below a new node every step makes a further node *)
Lemma fresh_chain : forall ty b l, exists m, foldM (winsert_step ty) b (l ++ [wn_new ty], N.of_nat (length l)) = Ok (l ++ m, N.of_nat (length l + length b)) /\ length m = S (length b) /\ nth_error m (length b) = Some (wn_new ty).
Proof.
  intros ty. induction b as [|c b IH]; intros l.
  - exists [wn_new ty]. cbn [foldM length]. rewrite Nat.add_0_r. auto.
  - cbn [foldM winsert_step]. rewrite lgetN_nat. rewrite (lget_nth_error _ _ _ (wn_new ty)) by (rewrite nth_error_app2, Nat.sub_diag by lia; reflexivity). cbn [bind].
    change (wn_target (wn_new ty) c) with 0%Z. cbn [Z.eqb negb]. rewrite Nnat.Nat2N.id, lset_Ok by (rewrite app_length; cbn [length]; lia). cbn [bind]. rewrite upd_last.
    set (x := wn_add ty (wn_new ty) c (length (l ++ [wn_new ty]))). replace (length (l ++ [wn_new ty])) with (length (l ++ [x])) by (rewrite !app_length; reflexivity).
    destruct (IH (l ++ [x])) as (m & -> & Lm & Nm). exists (x :: m). rewrite <- app_assoc. cbn [app length]. split; [|split; [lia|exact Nm]].
    rewrite app_length. cbn [length]. do 3 f_equal. lia.
Qed.
(** the step at which the number of nodes passes a bound *)
Lemma first_over : forall K cs ns i ns' i', foldM insert_step cs (ns, i) = Ok (ns', i') -> length ns <= K -> K < length ns' ->
  exists a c b ns1 i1 n1, cs = a ++ c :: b /\ foldM insert_step a (ns, i) = Ok (ns1, i1) /\ length ns1 = K /\ nth_error ns1 i1 = Some n1 /\ nd_target n1 c = 0.
Proof.
  intros K. induction cs as [|c cs IH]; intros ns i ns' i' H L L'; cbn [foldM] in H. { injection H as <- <-. lia. }
  apply bind_Ok_inv in H. destruct H as ([ns1 i1] & E & H). destruct (le_lt_dec (length ns1) K) as [Q|Q].
  - destruct (IH _ _ _ _ H Q L') as (a & c' & b & ns2 & i2 & n2 & -> & F & R). exists (c :: a), c', b, ns2, i2, n2. cbn [foldM app]. rewrite E. cbn [bind]. auto.
  - pose proof E as E'. apply step_length in E'. destruct E' as [->|[E' _]]; [lia|]. cbn [insert_step] in E. apply bind_Ok_inv in E. destruct E as (n & En & E). apply lget_Ok in En.
    destruct (Nat.eqb_spec (nd_target n c) 0) as [Z|Z]; cbn [negb] in E. 2: { injection E as <- _. lia. }
    exists [], c, cs, ns, i, n. cbn [foldM app]. repeat split; auto. lia.
Qed.
Lemma walk_app : forall a b ns i, wr_walk ns i (a ++ b) = do r <- wr_walk ns i a; match r with None => Ok None | Some j => wr_walk ns j b end.
Proof.
  induction a as [|c a IH]; intros b ns i; cbn [app wr_walk bind]; [reflexivity|]. destruct (lgetN ns i); cbn [bind]; auto. destruct (_ =? 0)%Z; [reflexivity|]. apply IH.
Qed.
Lemma index_walk : forall A (t : wtrie A) k, wr_traverse_index t k =
  do r <- wr_walk (wr_nodes t) 0 (k ++ [0%N]); match r with None => Ok (2 ^ 64 - 1)%N | Some i => do n <- lgetN (wr_nodes t) i; Ok (to_size (wn_item n)) end.
Proof.
  intros A t k. unfold wr_traverse_index. rewrite walk_app, bind_assoc. destruct (wr_walk (wr_nodes t) 0 k) as [[i|]| | |]; cbn [bind wr_walk]; auto.
  destruct (lgetN (wr_nodes t) i); cbn [bind]; auto. destruct (_ =? 0)%Z; reflexivity.
Qed.
Lemma prefix_in : forall ns P, Str ns P -> forall r p, In (p ++ r) P -> In p P.
Proof. intros ns P S. induction r as [|c r IH] using rev_ind; intros p H; [rewrite app_nil_r in H; exact H|]. apply IH. rewrite app_assoc in H. eapply st_closed; eauto. Qed.
Lemma narrow_cap : forall ty, std ty -> (it_bits ty < 64)%N -> (cap ty <= 2 ^ 32)%N.
Proof. intros ty S H. unfold std in S. cbn [In] in S. unfold cap, values_from_0. destruct (it_signed ty); apply N.pow_le_mono_r; lia. Qed.

Section Over.
Context {A : Type}.
Implicit Types (ops : list (list N * A)).
Variable ty : int_type.
Hypothesis Std : std ty.
Hypothesis Narrow : (it_bits ty < 64)%N.
(** nodes [ns1] with their strings [P]; the node [i1] of the string [a] has got an edge [c]; [m] are the nodes made afterwards *)
Section Path.
Variables (ns1 : list node) (P : list (list N)) (i1 : nat) (n1 : node) (a : list N) (c : N) (m : list wnode).
Hypothesis HS : Str ns1 P.
Hypothesis Hfull : N.of_nat (length ns1) = cap ty.
Hypothesis Ha : nth_error P i1 = Some a.
Hypothesis Hn : nth_error ns1 i1 = Some n1.
Hypothesis Hc : nd_target n1 c = 0.
Let l := upd (map (emb ty) ns1) i1 (wn_add ty (emb ty n1) c (length ns1)).
Lemma path_same : forall key j q, nth_error P j = Some q -> q ++ key = a -> wr_walk (l ++ m) (N.of_nat j) key = Ok (Some (N.of_nat i1)).
Proof using Std Narrow HS Hfull Ha Hn Hc.
  pose proof (cap_64 ty Std) as C.
  induction key as [|d key IH]; intros j q Ej Eq; cbn [wr_walk].
  - rewrite app_nil_r in Eq. subst q. rewrite (NoDup_nth_error_inj _ _ _ _ _ (st_nodup _ _ HS) Ej Ha). reflexivity.
  - pose proof (nth_error_lt _ _ _ _ Ej) as Lj. rewrite (st_len _ _ HS) in Lj. destruct (nth_error_ex _ _ _ Lj) as (n & En).
    assert (D : j <> i1). { intros ->. rewrite Ha in Ej. injection Ej as <-. apply (f_equal (@length N)) in Eq. rewrite app_length in Eq. cbn [length] in Eq. lia. }
    rewrite lgetN_nat. rewrite (lget_nth_error _ _ _ (emb ty n)).
    2: { rewrite nth_error_app1 by (unfold l; rewrite upd_length, map_length; exact Lj). unfold l. rewrite nth_error_upd. destruct (Nat.eqb_spec j i1); [congruence|]. cbn [andb]. rewrite nth_error_map, En. reflexivity. }
    cbn [bind]. rewrite emb_target. destruct (target_spec ns1 P HS j n q d En Ej) as [[T1 T2]|[T1 T2]].
    + destruct (Z.eqb_spec (Z.of_nat (nd_target n d)) 0); [lia|]. pose proof (nth_error_lt _ _ _ _ T2) as Lt. rewrite (st_len _ _ HS) in Lt. rewrite to_size_nat by lia.
      apply (IH _ _ T2). rewrite <- app_assoc. exact Eq.
    + destruct T2. apply (prefix_in ns1 P HS key). rewrite <- app_assoc. cbn [app]. rewrite Eq. eapply nth_error_In; eauto.
Qed.
Lemma path_edge : forall b, (N.of_nat (length m) < 2 ^ 63)%N -> wr_walk (l ++ m) 0 (a ++ c :: b) = (if it_signed ty then match b with [] => Ok (Some (2 ^ 64 - cap ty)%N) | _ => UB end else Ok None).
Proof using Std Narrow HS Hfull Ha Hn Hc.
  intros b Lm. pose proof (narrow_cap ty Std Narrow) as C. pose proof (cap_128 ty Std) as C1. rewrite walk_app. change 0%N with (N.of_nat 0). rewrite (path_same a 0 [] (st_root _ _ HS) eq_refl). cbn [bind wr_walk].
  pose proof (nth_error_lt _ _ _ _ Hn) as Li. rewrite lgetN_nat. rewrite (lget_nth_error _ _ _ (wn_add ty (emb ty n1) c (length ns1))).
  2: { rewrite nth_error_app1 by (unfold l; rewrite upd_length, map_length; exact Li). unfold l. rewrite nth_error_upd, Nat.eqb_refl, map_length. cbn [andb]. destruct (Nat.ltb_spec i1 (length ns1)); [reflexivity|lia]. }
  cbn [bind]. unfold wn_target. cbn [wn_add wn_edges emb]. rewrite find_added.
  2: { apply find_emb. destruct (find _ (nd_edges n1)) as [[d j]|] eqn:F; auto. exfalso. destruct (target_spec ns1 P HS i1 n1 a c Hn Ha) as [[T _]|[_ T]]; [congruence|].
       pose proof (find_some _ _ F) as [F1 F2]. cbn [fst] in F2. apply N.eqb_eq in F2. subst d. apply (st_edges _ _ HS _ _ _ Hn Ha) in F1. apply T. eapply nth_error_In; eauto. }
  cbn [snd]. rewrite it_of_cap by auto. change (2 ^ 32)%N with 4294967296%N in C. change (2 ^ 63)%N with 9223372036854775808%N in Lm. destruct (it_signed ty) eqn:SG; [|reflexivity].
  destruct (Z.eqb_spec (- Z.of_N (cap ty)) 0); [lia|].
  assert (T : to_size (- Z.of_N (cap ty)) = (2 ^ 64 - cap ty)%N).
  { unfold to_size. change (2 ^ 64)%N with 18446744073709551616%N. change (2 ^ 64)%Z with 18446744073709551616%Z. rewrite <- (Z.mod_add _ 1) by lia. rewrite Z.mod_small; lia. }
  rewrite T. destruct b as [|d b]; [reflexivity|]. cbn [wr_walk]. unfold lgetN. rewrite app_length. unfold l. rewrite upd_length, map_length. change (2 ^ 64)%N with 18446744073709551616%N.
  destruct (N.ltb_spec (18446744073709551616 - cap ty) (N.of_nat (length ns1 + length m))); [lia|reflexivity].
Qed.
End Path.

Theorem width_over : forall ops k x n n', prefix_count ops n -> (N.of_nat n <= cap ty)%N -> prefix_count (ops ++ [(k, x)]) n' -> (cap ty < N.of_nat n')%N -> (N.of_nat (length k) < 2 ^ 62)%N ->
  exists t, wr_run ty (ops ++ [(k, x)]) = Ok t /\ wr_traverse t k = if it_signed ty then UB else Ok None.
Proof using Std Narrow.
  intros ops k x n n' PC B PC' B' Lk. destruct (run_ok ops) as (t & P & E & I). pose proof (count_nodes _ _ _ PC E) as L. pose proof (iv_str _ _ _ I) as S. pose proof (store_nodes _ _ _ E I) as SN.
  pose proof (narrow_cap ty Std Narrow) as C. pose proof (cap_128 ty Std) as C1. change (2 ^ 32)%N with 4294967296%N in C.
  rewrite (wrun_snoc ty _ k x _ (run_sim ty Std ops t E ltac:(lia))). rewrite wr_insert_put. cbn [embt wr_nodes wr_store].
  destruct (insert_ok ops t P k x I) as (t' & y & e & Ei & I' & _). assert (E' : tr_run (ops ++ [(k, x)]) = Ok t') by (rewrite (run_snoc _ k x _ E), Ei; reflexivity).
  pose proof (count_nodes _ _ _ PC' E') as L'. rewrite tr_insert_put in Ei. apply bind_Ok_inv in Ei. destruct Ei as ([ns i] & F & Ei). cbn [fst snd] in Ei.
  assert (Ln : length ns = length (tr_nodes t')).
  { unfold tput in Ei. apply bind_Ok_inv in Ei. destruct Ei as (z & _ & Ei). destruct (nd_item z); apply bind_Ok_inv in Ei; destruct Ei as (q & Q & Ei); injection Ei as <- <-; cbn [tr_nodes]; [reflexivity|].
    apply lset_inv in Q. destruct Q as [_ ->]. rewrite upd_length. reflexivity. }
  destruct (first_over (N.to_nat (cap ty)) _ _ _ _ _ F) as (a & c & b & ns1 & i1 & n1 & Ecs & F1 & L1 & En1 & T1); [lia|lia|].
  destruct (steps_ok a (tr_nodes t) P 0 [] S (st_root _ _ S)) as (ns2 & i2 & e1 & F2 & S1 & Pa & _). cbn [app] in Pa. rewrite F1 in F2. injection F2 as <- <-.
  assert (FULL : N.of_nat (length ns1) = cap ty) by lia. assert (Lb : length b <= length k). { apply (f_equal (@length N)) in Ecs. rewrite !app_length in Ecs. cbn [length] in Ecs. lia. }
  pose proof (wsteps_sim ty Std a _ P 0 [] ns1 i1 S (st_root _ _ S) F1 ltac:(lia)) as W. change (N.of_nat 0) with 0%N in W.
  rewrite Ecs. rewrite foldM_app, W. cbn [bind foldM winsert_step]. rewrite lgetN_nat, lget_map, (lget_nth_error _ _ _ _ En1). cbn [rmap bind]. rewrite emb_target, T1. cbn [Z.of_nat Z.eqb negb].
  pose proof (nth_error_lt _ _ _ _ En1) as Li. rewrite Nnat.Nat2N.id, lset_Ok by (rewrite map_length; exact Li). cbn [bind]. rewrite map_length.
  set (l := upd (map (emb ty) ns1) i1 (wn_add ty (emb ty n1) c (length ns1))). assert (Ll : length l = length ns1) by (unfold l; rewrite upd_length, map_length; reflexivity).
  rewrite <- Ll. destruct (fresh_chain ty b l) as (m & -> & Lm & Nm). cbn [bind fst snd]. unfold wr_put. rewrite lgetN_nat.
  rewrite (lget_nth_error _ _ _ (wn_new ty)) by (rewrite nth_error_app2 by lia; replace (length l + length b - length l) with (length b) by lia; exact Nm). cbn [bind wn_new wn_item wn_edges]. rewrite Z.eqb_refl.
  rewrite Nnat.Nat2N.id, lset_Ok by (rewrite app_length; lia). cbn [bind]. rewrite it_of_small by (auto; lia). rewrite to_size_nat by lia. rewrite app_length. cbn [length].
  destruct (N.ltb_spec (N.of_nat (length (tr_store t))) (N.of_nat (length (tr_store t) + 1))); [|lia]. cbn [bind fst]. eexists. split; [reflexivity|].
  unfold wr_traverse. rewrite index_walk. cbn [wr_nodes wr_store]. rewrite upd_app, Ecs. unfold l at 1 2. change (2 ^ 62)%N with 4611686018427387904%N in Lk. 
  rewrite (path_edge ns1 _ i1 n1 a c _ S1 FULL Pa En1 T1) by (rewrite upd_length; change (2 ^ 63)%N with 9223372036854775808%N; lia).
  destruct (it_signed ty); [|reflexivity]. destruct b as [|d b]; [|reflexivity]. cbn [bind]. unfold lgetN at 1. rewrite app_length, !upd_length, map_length. change (2 ^ 64)%N with 18446744073709551616%N.
  cbn [length] in Lm. destruct (N.ltb_spec (18446744073709551616 - cap ty) (N.of_nat (length ns1 + length m))); [lia|reflexivity].
Qed.
End Over.

Lemma run_count : forall A (ops : list (list N * A)) t, tr_run ops = Ok t -> prefix_count ops (length (tr_nodes t)).
Proof.
  intros A ops t E. destruct (run_ok ops) as (t0 & P & E0 & I). rewrite E in E0. injection E0 as <-. pose proof (iv_str _ _ _ I) as S. exists P.
  split; [apply (st_nodup _ _ S)|]. split; [apply (st_len _ _ S)|apply (iv_pref _ _ _ I)].
Qed.
Theorem first_lost : forall A ty (ops : list (list N * A)) k x n n', In (it_bits ty) [8; 16; 32]%N ->
  prefix_count ops n -> (N.of_nat n <= values_from_0 (it_signed ty) (it_bits ty))%N ->
  prefix_count (ops ++ [(k, x)]) n' -> (values_from_0 (it_signed ty) (it_bits ty) < N.of_nat n')%N -> (N.of_nat (length k) < 2 ^ 62)%N ->
  exists t, wr_run ty (ops ++ [(k, x)]) = Ok t /\ wr_traverse t k = if it_signed ty then UB else Ok None.
Proof. intros A ty ops k x n n' S. apply (width_over ty). { unfold std. cbn [In] in *. lia. } cbn [In] in S. lia. Qed.
