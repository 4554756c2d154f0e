(** Proofs about TrieWidthModel: as long as every node has its own number the trie is the one of TrieModel. *)
From Coq Require Import List NArith ZArith Arith Bool Lia Sorted.
From Verif Require Import Base Spec5 Spec16 Spec27 TrieModel TrieProof TrieExact TrieWidthModel.
Import ListNotations.
Local Open Scope nat_scope.

Definition cap (ty : int_type) : N := values_from_0 (it_signed ty) (it_bits ty).
Definition std (ty : int_type) : Prop := In (it_bits ty) [8; 16; 32; 64]%N.
Lemma std_bits : forall ty, std ty -> (8 <= it_bits ty <= 64)%N.
Proof. intros ty H. unfold std in H. cbn [In] in H. lia. Qed.
Lemma cap_Z : forall ty, std ty -> Z.of_N (cap ty) = if it_signed ty then (2 ^ (Z.of_N (it_bits ty) - 1))%Z else (2 ^ Z.of_N (it_bits ty))%Z.
Proof. intros ty H. apply std_bits in H. unfold cap, values_from_0. destruct (it_signed ty); rewrite N2Z.inj_pow; [|reflexivity]. rewrite N2Z.inj_sub by lia. reflexivity. Qed.
Lemma max_cap : forall ty, std ty -> it_max ty = (Z.of_N (cap ty) - 1)%Z.
Proof. intros ty H. rewrite cap_Z by auto. unfold it_max. destruct (it_signed ty); reflexivity. Qed.
Lemma cap_64 : forall ty, std ty -> (cap ty <= 2 ^ 64)%N.
Proof. intros ty H. apply std_bits in H. unfold cap, values_from_0. destruct (it_signed ty); apply N.pow_le_mono_r; lia. Qed.
Lemma cap_128 : forall ty, std ty -> (128 <= cap ty)%N.
Proof. intros ty H. apply std_bits in H. change 128%N with (2 ^ 7)%N. unfold cap, values_from_0. destruct (it_signed ty); apply N.pow_le_mono_r; lia. Qed.
Lemma pow_split : forall b : Z, (1 <= b)%Z -> (2 ^ b = 2 * 2 ^ (b - 1))%Z.
Proof. intros b H. rewrite <- Z.pow_succ_r by lia. f_equal. lia. Qed.
Lemma it_of_small : forall ty n, std ty -> (N.of_nat n < cap ty)%N -> it_of ty n = Z.of_nat n.
Proof.
  intros ty n S H. assert (H' : (Z.of_nat n < Z.of_N (cap ty))%Z) by lia. rewrite cap_Z in H' by auto. pose proof (std_bits ty S) as B. pose proof (pow_split (Z.of_N (it_bits ty)) ltac:(lia)) as PS.
  unfold it_of. destruct (it_signed ty).
  - rewrite Z.mod_small by lia. destruct (Z.leb_spec (2 ^ (Z.of_N (it_bits ty) - 1)) (Z.of_nat n)); [lia|reflexivity].
  - rewrite Z.mod_small by lia. reflexivity.
Qed.
(** the first number which does not fit *)
Lemma it_of_cap : forall ty n, std ty -> N.of_nat n = cap ty -> it_of ty n = if it_signed ty then (- Z.of_N (cap ty))%Z else 0%Z.
Proof.
  intros ty n S H. assert (H' : (Z.of_nat n = Z.of_N (cap ty))%Z) by lia. rewrite cap_Z in * by auto. pose proof (std_bits ty S) as B. pose proof (pow_split (Z.of_N (it_bits ty)) ltac:(lia)) as PS.
  assert (0 < 2 ^ (Z.of_N (it_bits ty) - 1))%Z by (apply Z.pow_pos_nonneg; lia).
  unfold it_of. rewrite H'. destruct (it_signed ty).
  - rewrite Z.mod_small by lia. rewrite Z.leb_refl. cbn [andb]. lia.
  - rewrite Z.mod_same by lia. reflexivity.
Qed.
Lemma to_size_nat : forall n, (N.of_nat n < 2 ^ 64)%N -> to_size (Z.of_nat n) = N.of_nat n.
Proof. intros n H. unfold to_size. rewrite Z.mod_small; [lia|]. change (2 ^ 64)%Z with (Z.of_N (2 ^ 64)). lia. Qed.
Lemma lgetN_nat : forall (B : Type) (l : list B) i, lgetN l (N.of_nat i) = lget l i.
Proof.
  intros B l i. unfold lgetN. destruct (N.ltb_spec (N.of_nat i) (N.of_nat (length l))). { rewrite Nnat.Nat2N.id. reflexivity. }
  symmetry. apply lget_UB. lia.
Qed.
Lemma lget_map : forall (B C : Type) (f : B -> C) l i, lget (map f l) i = rmap f (lget l i).
Proof. intros. unfold lget, rmap. rewrite nth_error_map. destruct (nth_error l i); reflexivity. Qed.
Lemma upd_map : forall (B C : Type) (f : B -> C) l i x, upd (map f l) i (f x) = map f (upd l i x).
Proof. induction l; destruct i; intros; cbn [map upd]; auto. rewrite IHl. reflexivity. Qed.
Lemma lset_map : forall (B C : Type) (f : B -> C) l i x, lset (map f l) i (f x) = rmap (map f) (lset l i x).
Proof. intros. unfold lset, rmap. rewrite map_length. destruct (i <? length l); cbn [bind]; [rewrite upd_map|]; reflexivity. Qed.

Section Sim.
Variable ty : int_type.
Hypothesis Std : std ty.
Definition eedge (e : N * nat) : N * Z := (fst e, Z.of_nat (snd e)).
(** a node of TrieModel as a node with numbers of the size_type *)
Definition emb (n : node) : wnode := {| wn_item := match nd_item n with Some i => Z.of_nat i | None => it_max ty end; wn_edges := map eedge (nd_edges n) |}.
Lemma emb_new : emb nd_new = wn_new ty.
Proof. reflexivity. Qed.
Lemma emb_target : forall n c, wn_target (emb n) c = Z.of_nat (nd_target n c).
Proof.
  intros n c. unfold wn_target, nd_target. cbn [emb wn_edges]. induction (nd_edges n) as [|[d j] l IH]; [reflexivity|]. cbn [map find eedge fst snd].
  destruct (d =? c)%N; [reflexivity|exact IH].
Qed.
Lemma emb_edge_add : forall l c j, wedge_add (map eedge l) c (Z.of_nat j) = map eedge (edge_add l c j).
Proof.
  induction l as [|[d i] l IH]; intros c j; [reflexivity|]. cbn [map eedge fst snd edge_add wedge_add]. destruct (c <? d)%N; [reflexivity|]. destruct (c =? d)%N; [reflexivity|].
  cbn [map eedge fst snd]. rewrite <- IH. reflexivity.
Qed.
Lemma emb_add : forall n c j, (N.of_nat j < cap ty)%N -> wn_add ty (emb n) c j = emb (nd_add n c j).
Proof using Std. intros n c j H. unfold wn_add, emb, nd_add. cbn [wn_item wn_edges nd_item nd_edges]. rewrite it_of_small by auto. rewrite emb_edge_add. reflexivity. Qed.

Lemma step_length : forall ns i c ns' i', insert_step (ns, i) c = Ok (ns', i') -> (ns' = ns \/ (length ns' = S (length ns) /\ i' = length ns)).
Proof.
  intros ns i c ns' i' H. cbn [insert_step] in H. apply bind_Ok_inv in H. destruct H as (n & _ & H). destruct (negb _); [injection H as <- <-; auto|].
  apply bind_Ok_inv in H. destruct H as (l & L & H). injection H as <- <-. apply lset_inv in L. destruct L as [_ ->]. right. rewrite app_length, upd_length. cbn [length]. split; [lia|reflexivity].
Qed.
Lemma steps_length : forall cs ns i ns' i', foldM insert_step cs (ns, i) = Ok (ns', i') -> length ns <= length ns'.
Proof.
  induction cs as [|c cs IH]; intros ns i ns' i' H; cbn [foldM] in H. { injection H as <- <-. auto. }
  apply bind_Ok_inv in H. destruct H as ([ns1 i1] & E & H). apply IH in H. apply step_length in E. destruct E as [->|[E _]]; lia.
Qed.
Lemma wstep_sim : forall ns P i p c ns' i', Str ns P -> nth_error P i = Some p -> insert_step (ns, i) c = Ok (ns', i') -> (N.of_nat (length ns') <= cap ty)%N ->
  winsert_step ty (map emb ns, N.of_nat i) c = Ok (map emb ns', N.of_nat i').
Proof using Std.
  intros ns P i p c ns' i' S Ep H B. pose proof (cap_64 ty Std) as C. cbn [insert_step winsert_step] in *. rewrite lgetN_nat, lget_map.
  apply bind_Ok_inv in H. destruct H as (n & En & H). rewrite En. cbn [rmap bind]. rewrite emb_target. apply lget_Ok in En.
  destruct (Nat.eqb_spec (nd_target n c) 0) as [Z|Z]; cbn [negb] in H.
  - rewrite Z. cbn [Z.eqb negb Z.of_nat]. apply bind_Ok_inv in H. destruct H as (l & L & H). injection H as <- <-. pose proof (lset_inv _ _ _ _ _ L) as [_ ->].
    rewrite app_length, upd_length in B. cbn [length] in B. rewrite map_length, emb_add by lia. rewrite Nnat.Nat2N.id, lset_map, L. cbn [rmap bind]. rewrite map_app. reflexivity.
  - destruct (Z.eqb_spec (Z.of_nat (nd_target n c)) 0); [lia|]. cbn [negb]. injection H as <- <-. rewrite to_size_nat; [reflexivity|].
    destruct (target_spec ns P S i n p c En Ep) as [[_ T]|[T _]]; [|congruence]. apply nth_error_lt in T. rewrite (st_len _ _ S) in T. lia.
Qed.
Lemma wsteps_sim : forall cs ns P i p ns' i', Str ns P -> nth_error P i = Some p -> foldM insert_step cs (ns, i) = Ok (ns', i') -> (N.of_nat (length ns') <= cap ty)%N ->
  foldM (winsert_step ty) cs (map emb ns, N.of_nat i) = Ok (map emb ns', N.of_nat i').
Proof using Std.
  induction cs as [|c cs IH]; intros ns P i p ns' i' S Ep H B; cbn [foldM] in *. { injection H as <- <-. reflexivity. }
  apply bind_Ok_inv in H. destruct H as ([ns1 i1] & E & H). destruct (step_ok ns P S i p c Ep) as (ns2 & i2 & e & E2 & S2 & P2 & _). rewrite E in E2. injection E2 as <- <-.
  pose proof (steps_length _ _ _ _ _ H) as L. rewrite (wstep_sim ns P i p c ns1 i1) by (auto; lia). cbn [bind]. eapply IH; eauto.
Qed.
End Sim.

(** how many nodes have an item *)
Definition has_item (n : node) : bool := match nd_item n with Some _ => true | None => false end.
Definition items (ns : list node) : nat := length (filter has_item ns).
Lemma items_app : forall l m, items (l ++ m) = items l + items m.
Proof. intros. unfold items. rewrite filter_app, app_length. reflexivity. Qed.
Lemma items_le : forall l, items l <= length l.
Proof. unfold items. induction l as [|a l IH]; cbn [filter length]; [auto|]. destruct (has_item a); cbn [length]; lia. Qed.
Lemma items_upd : forall l i n m, nth_error l i = Some n -> items (upd l i m) + (if has_item n then 1 else 0) = items l + (if has_item m then 1 else 0).
Proof.
  unfold items. induction l as [|a l IH]; intros [|i] n m H; try discriminate; cbn [nth_error upd filter] in *.
  - injection H as ->. destruct (has_item n), (has_item m); cbn [length]; lia.
  - specialize (IH i n m H). destruct (has_item a); cbn [length]; lia.
Qed.
Lemma step_items : forall ns i c ns' i', insert_step (ns, i) c = Ok (ns', i') -> items ns' = items ns.
Proof.
  intros ns i c ns' i' H. cbn [insert_step] in H. apply bind_Ok_inv in H. destruct H as (n & E & H). destruct (negb _); [injection H as <- <-; auto|].
  apply bind_Ok_inv in H. destruct H as (l & L & H). injection H as <- <-. apply lset_inv in L. destruct L as [_ ->]. rewrite items_app. apply lget_Ok in E. pose proof (items_upd ns i n (nd_add n c (length ns)) E) as Q.
  change (has_item (nd_add n c (length ns))) with (has_item n) in Q. change (items [nd_new]) with 0. lia.
Qed.
Lemma steps_items : forall cs ns i ns' i', foldM insert_step cs (ns, i) = Ok (ns', i') -> items ns' = items ns.
Proof.
  induction cs as [|c cs IH]; intros ns i ns' i' H; cbn [foldM] in H. { injection H as <- <-. auto. }
  apply bind_Ok_inv in H. destruct H as ([ns1 i1] & E & H). apply IH in H. apply step_items in E. lia.
Qed.
Lemma ins_steps : forall st k, (do r <- foldM insert_step k st; insert_step r 0%N) = foldM insert_step (k ++ [0%N]) st.
Proof. intros st k. rewrite foldM_app. destruct (foldM insert_step k st) as [r| | |]; cbn [bind foldM]; auto. destruct (insert_step r 0%N); reflexivity. Qed.
Lemma wins_steps : forall ty st k, (do r <- foldM (winsert_step ty) k st; winsert_step ty r 0%N) = foldM (winsert_step ty) (k ++ [0%N]) st.
Proof. intros ty st k. rewrite foldM_app. destruct (foldM (winsert_step ty) k st) as [r| | |]; cbn [bind foldM]; auto. destruct (winsert_step ty r 0%N); reflexivity. Qed.
Lemma bind_assoc : forall (X Y Z : Type) (m : res X) (f : X -> res Y) (g : Y -> res Z), (do y <- (do x <- m; f x); g y) = do x <- m; do y <- f x; g y.
Proof. intros. destruct m; reflexivity. Qed.

Section Items.
Context {A : Type}.
Implicit Types (ops : list (list N * A)) (t : trie A).
Definition tput (ns : list node) (i : nat) (store : list A) (item : A) : res (trie A * nat) :=
  do n <- lget ns i;
  match nd_item n with
  | None => do ns <- lset ns i {| nd_item := Some (length store); nd_edges := nd_edges n |}; Ok ({| tr_nodes := ns; tr_store := store ++ [item] |}, length store)
  | Some x => do store <- lset store x item; Ok ({| tr_nodes := ns; tr_store := store |}, x)
  end.
Lemma tr_insert_put : forall t k x, tr_insert t k x = do r <- foldM insert_step (k ++ [0%N]) (tr_nodes t, 0); tput (fst r) (snd r) (tr_store t) x.
Proof. intros t k x. rewrite <- ins_steps, bind_assoc. unfold tr_insert. destruct (foldM insert_step k (tr_nodes t, 0)) as [r| | |]; auto. cbn [bind]. destruct (insert_step r 0%N) as [[ns i]| | |]; reflexivity. Qed.
Lemma wr_insert_put : forall ty (t : wtrie A) k x, wr_insert ty t k x = do r <- foldM (winsert_step ty) (k ++ [0%N]) (wr_nodes t, 0%N); wr_put ty (fst r) (snd r) (wr_store t) x.
Proof. intros ty t k x. rewrite <- wins_steps, bind_assoc. reflexivity. Qed.
Lemma insert_items : forall t k x t' y, tr_insert t k x = Ok (t', y) -> items (tr_nodes t) = length (tr_store t) -> items (tr_nodes t') = length (tr_store t').
Proof.
  intros t k x t' y H I. rewrite tr_insert_put in H. apply bind_Ok_inv in H. destruct H as ([ns i] & E & H). apply steps_items in E. unfold tput in H. cbn [fst snd] in H. apply bind_Ok_inv in H. destruct H as (n & En & H).
  destruct (nd_item n) as [z|] eqn:Z; apply bind_Ok_inv in H; destruct H as (l & L & H); injection H as <- <-; apply lset_inv in L; destruct L as [_ ->]; cbn [tr_nodes tr_store].
  - rewrite upd_length. lia.
  - rewrite app_length. cbn [length]. apply lget_Ok in En. pose proof (items_upd ns i n {| nd_item := Some (length (tr_store t)); nd_edges := nd_edges n |} En) as Q. unfold has_item in Q. cbn [nd_item] in Q. rewrite Z in Q. lia.
Qed.
Lemma run_items : forall ops t, tr_run ops = Ok t -> items (tr_nodes t) = length (tr_store t).
Proof.
  induction ops as [|[k x] ops IH] using rev_ind; intros t E. { injection E as <-. reflexivity. }
  unfold tr_run in *. rewrite foldM_app in E. apply bind_Ok_inv in E. destruct E as (t0 & E0 & E). specialize (IH _ E0). cbn [foldM fst snd] in E. apply bind_Ok_inv in E. destruct E as (t1 & E & X). injection X as <-.
  apply bind_Ok_inv in E. destruct E as ([t2 y] & E & X). injection X as <-. eapply insert_items; eauto.
Qed.
(** every item has its own node, and the root has no item *)
Lemma store_nodes : forall ops t P, tr_run ops = Ok t -> Inv ops t P -> length (tr_store t) < length (tr_nodes t).
Proof.
  intros ops t P E I. rewrite <- (run_items _ _ E). pose proof (iv_str _ _ _ I) as S. pose proof (st_root _ _ S) as R. pose proof (nth_error_lt _ _ _ _ R) as L. rewrite (st_len _ _ S) in L.
  pose proof (iv_some _ _ _ I 0) as J. unfold item_of in J. destruct (tr_nodes t) as [|n ns]; [inversion L|]. cbn [nth_error] in J. unfold items. cbn [filter length].
  assert (Z : has_item n = false). { unfold has_item. destruct (nd_item n) as [z|]; auto. destruct (J z [] R eq_refl) as (k & Q & _). destruct k; discriminate. }
  rewrite Z. pose proof (items_le ns) as Q. unfold items in Q. lia.
Qed.

Section Sim2.
Variable ty : int_type.
Hypothesis Std : std ty.
Definition embt (t : trie A) : wtrie A := {| wr_nodes := map (emb ty) (tr_nodes t); wr_store := tr_store t |}.
Lemma insert_sim : forall ops t P k x t' y, tr_run ops = Ok t -> Inv ops t P -> tr_insert t k x = Ok (t', y) -> (N.of_nat (length (tr_nodes t')) <= cap ty)%N ->
  wr_insert ty (embt t) k x = Ok (embt t', N.of_nat y).
Proof using Std.
  intros ops t P k x t' y E I H B. pose proof (iv_str _ _ _ I) as S. pose proof (store_nodes _ _ _ E I) as SN. pose proof (cap_64 ty Std) as C. pose proof (max_cap ty Std) as M.
  rewrite tr_insert_put in H. apply bind_Ok_inv in H. destruct H as ([ns i] & F & H). cbn [fst snd] in H. pose proof (steps_length _ _ _ _ _ F) as L.
  assert (B' : (N.of_nat (length ns) <= cap ty)%N).
  { unfold tput in H. apply bind_Ok_inv in H. destruct H as (n & En & H). destruct (nd_item n); apply bind_Ok_inv in H; destruct H as (l & Q & H); injection H as <- <-; cbn [tr_nodes] in B; [exact B|].
    apply lset_inv in Q. destruct Q as [_ ->]. rewrite upd_length in B. exact B. }
  rewrite wr_insert_put. cbn [embt wr_nodes wr_store]. change 0%N with (N.of_nat 0) at 2. rewrite (wsteps_sim ty Std _ _ P 0 [] ns i S (st_root _ _ S) F B'). cbn [bind fst snd].
  unfold wr_put. unfold tput in H. apply bind_Ok_inv in H. destruct H as (n & En & H). rewrite lgetN_nat, lget_map, En. cbn [rmap bind]. cbn [emb wn_item wn_edges].
  destruct (nd_item n) as [z|]; apply bind_Ok_inv in H; destruct H as (l & Q & H); injection H as <- <-.
  - pose proof (lset_inv _ _ _ _ _ Q) as [Lz _]. destruct (Z.eqb_spec (Z.of_nat z) (it_max ty)) as [D|_]; [lia|]. rewrite to_size_nat by lia.
    destruct (N.ltb_spec (N.of_nat z) (N.of_nat (length (tr_store t)))); [|lia]. rewrite Nnat.Nat2N.id, Q. reflexivity.
  - rewrite Z.eqb_refl. rewrite it_of_small by (auto; lia). rewrite Nnat.Nat2N.id.
    change {| wn_item := Z.of_nat (length (tr_store t)); wn_edges := map eedge (nd_edges n) |} with (emb ty {| nd_item := Some (length (tr_store t)); nd_edges := nd_edges n |}).
    rewrite lset_map, Q. cbn [rmap bind]. rewrite to_size_nat by lia. rewrite app_length. cbn [length].
    destruct (N.ltb_spec (N.of_nat (length (tr_store t))) (N.of_nat (length (tr_store t) + 1))); [reflexivity|lia].
Qed.
Lemma insert_grows : forall t k x t' y, tr_insert t k x = Ok (t', y) -> length (tr_nodes t) <= length (tr_nodes t').
Proof.
  intros t k x t' y H. rewrite tr_insert_put in H. apply bind_Ok_inv in H. destruct H as ([ns i] & F & H). cbn [fst snd] in H. pose proof (steps_length _ _ _ _ _ F) as L.
  unfold tput in H. apply bind_Ok_inv in H. destruct H as (n & En & H). destruct (nd_item n); apply bind_Ok_inv in H; destruct H as (l & Q & H); injection H as <- <-; cbn [tr_nodes]; [exact L|].
  apply lset_inv in Q. destruct Q as [_ ->]. rewrite upd_length. exact L.
Qed.
Lemma run_snoc : forall ops k x t, tr_run ops = Ok t -> tr_run (ops ++ [(k, x)]) = do r <- tr_insert t k x; Ok (fst r).
Proof. intros ops k x t E. unfold tr_run in *. rewrite foldM_app, E. cbn [bind foldM fst snd]. destruct (tr_insert t k x); reflexivity. Qed.
Lemma wrun_snoc : forall ops k x (t : wtrie A), wr_run ty ops = Ok t -> wr_run ty (ops ++ [(k, x)]) = do r <- wr_insert ty t k x; Ok (fst r).
Proof. intros ops k x t E. unfold wr_run in *. rewrite foldM_app, E. cbn [bind foldM fst snd]. destruct (wr_insert ty t k x); reflexivity. Qed.
Lemma run_sim : forall ops t, tr_run ops = Ok t -> (N.of_nat (length (tr_nodes t)) <= cap ty)%N -> wr_run ty ops = Ok (embt t).
Proof using Std.
  induction ops as [|[k x] ops IH] using rev_ind; intros t E B. { injection E as <-. reflexivity. }
  destruct (run_ok ops) as (t0 & P & E0 & I). rewrite (run_snoc _ _ _ _ E0) in E. apply bind_Ok_inv in E. destruct E as ([t1 y] & E & X). injection X as <-. cbn [fst] in B. pose proof (insert_grows _ _ _ _ _ E) as G.
  rewrite (wrun_snoc _ k x _ (IH t0 E0 ltac:(lia))). rewrite (insert_sim ops t0 P k x t1 y) by auto. reflexivity.
Qed.
Lemma walk_sim : forall ns P, Str ns P -> (N.of_nat (length ns) <= cap ty)%N -> forall key i p, nth_error P i = Some p ->
  wr_walk (map (emb ty) ns) (N.of_nat i) key = rmap (option_map N.of_nat) (tr_walk ns i key).
Proof using Std.
  intros ns P S B. pose proof (cap_64 ty Std) as C. induction key as [|c key IH]; intros i p Ep; cbn [wr_walk tr_walk]. { reflexivity. }
  pose proof (nth_error_lt _ _ _ _ Ep) as Li. rewrite (st_len _ _ S) in Li. destruct (nth_error_ex _ _ _ Li) as (n & En). rewrite lgetN_nat, lget_map, (lget_nth_error _ _ _ _ En). cbn [rmap bind].
  rewrite emb_target. destruct (target_spec ns P S i n p c En Ep) as [[T1 T2]|[T1 T2]].
  - destruct (Nat.eqb_spec (nd_target n c) 0); [congruence|]. destruct (Z.eqb_spec (Z.of_nat (nd_target n c)) 0); [lia|]. pose proof (nth_error_lt _ _ _ _ T2) as Lt. rewrite (st_len _ _ S) in Lt.
    rewrite to_size_nat by lia. apply (IH _ _ T2).
  - rewrite T1. reflexivity.
Qed.
Definition is_size_t : bool := negb (it_signed ty) && (it_bits ty =? 64)%N.
Lemma to_size_max : to_size (it_max ty) = (cap ty - 1)%N.
Proof using Std.
  rewrite max_cap by auto. pose proof (cap_64 ty Std) as C. pose proof (cap_128 ty Std). unfold to_size. rewrite Z.mod_small; [lia|]. change (2 ^ 64)%Z with (Z.of_N (2 ^ 64)). lia.
Qed.
Lemma cap_full : cap ty = (2 ^ 64)%N <-> is_size_t = true.
Proof using Std.
  unfold is_size_t, cap, values_from_0. unfold std in Std. cbn [In] in Std. destruct ty as [sg b]. cbn [it_signed it_bits] in *. destruct sg; cbn [negb andb];
    destruct Std as [<-|[<-|[<-|[<-|[]]]]]; vm_compute; split; congruence.
Qed.
Lemma traverse_width : forall ops t P k, tr_run ops = Ok t -> Inv ops t P -> (N.of_nat (length (tr_nodes t)) <= cap ty)%N ->
  (was_inserted ops k -> wr_traverse (embt t) k = Ok (last_item ops k)) /\
  (~ was_inserted ops k -> ~ zero_continues ops k -> wr_traverse (embt t) k = Ok None) /\
  (~ was_inserted ops k -> zero_continues ops k -> wr_traverse (embt t) k = if is_size_t then Ok None else UB).
Proof using Std.
  intros ops t P k E I B. pose proof (iv_str _ _ _ I) as S. pose proof (store_nodes _ _ _ E I) as SN. pose proof (cap_64 ty Std) as C.
  unfold wr_traverse, wr_traverse_index. cbn [embt wr_nodes wr_store].
  assert (NP : ~ In (k ++ [0%N]) P -> ~ was_inserted ops k /\ ~ zero_continues ops k).
  { intros H. split; intros Q; apply H; apply (iv_pref _ _ _ I); [|apply zero_prefix; exact Q]. destruct Q as (y & Q). right. exists k, y, []. rewrite app_nil_r. auto. }
  pose proof (walk_sim _ P S B k 0 [] (st_root _ _ S)) as WS. change (N.of_nat 0) with 0%N in WS. rewrite WS.
  destruct (walk_ok _ _ S k 0 [] (st_root _ _ S)) as [(i & -> & Ei)|[-> Ei]]; cbn [rmap bind app option_map] in *.
  2: { rewrite N.eqb_refl. destruct NP as [N1 N2]. { intros H. apply Ei. eapply st_closed; eauto. } tauto. }
  pose proof (nth_error_lt _ _ _ _ Ei) as Li. rewrite (st_len _ _ S) in Li. destruct (nth_error_ex _ _ _ Li) as (n & En). rewrite lgetN_nat, lget_map, (lget_nth_error _ _ _ _ En). cbn [rmap bind].
  rewrite emb_target. destruct (target_spec _ P S i n k 0%N En Ei) as [[T1 T2]|[T1 T2]].
  2: { rewrite T1. cbn [Z.of_nat Z.eqb bind]. rewrite N.eqb_refl. destruct (NP T2). tauto. }
  destruct (Z.eqb_spec (Z.of_nat (nd_target n 0)) 0); [lia|].
  pose proof (nth_error_lt _ _ _ _ T2) as Lj. rewrite (st_len _ _ S) in Lj. destruct (nth_error_ex _ _ _ Lj) as (m & Em). rewrite to_size_nat by lia. rewrite lgetN_nat, lget_map, (lget_nth_error _ _ _ _ Em). cbn [rmap bind].
  assert (Hm : item_of (tr_nodes t) (nd_target n 0) = nd_item m) by (unfold item_of; rewrite Em; reflexivity).
  cbn [emb wn_item]. destruct (nd_item m) as [y|] eqn:Ny.
  - destruct (iv_some _ _ _ I _ _ _ T2 Hm) as (k' & Ek & Lk & Sk). apply app_inj_tail in Ek. destruct Ek as [<- _].
    assert (Ly : y < length (tr_store t)) by (apply nth_error_Some; congruence).
    assert (W : was_inserted ops k). { destruct (last_item ops k) as [z|] eqn:Q; [|congruence]. eapply last_item_some; eauto. }
    rewrite to_size_nat by lia. destruct (N.eqb_spec (N.of_nat y) (2 ^ 64 - 1)); [lia|]. rewrite lgetN_nat.
    rewrite <- Sk. destruct (nth_error (tr_store t) y) as [z|] eqn:Ez; [|congruence]. rewrite (lget_nth_error _ _ _ _ Ez). cbn [bind]. tauto.
  - assert (LN : last_item ops k = None) by (eapply iv_none; eauto).
    assert (W : ~ was_inserted ops k) by (intros (x & Q); apply (in_last_item _ _ _ Q LN)).
    assert (Z : zero_continues ops k). { apply prefix_zero; auto. apply (iv_pref _ _ _ I). eapply nth_error_In; eauto. }
    split; [tauto|]. split; [tauto|]. intros _ _. rewrite to_size_max. pose proof cap_full as CF. pose proof (cap_128 ty Std) as C1. destruct is_size_t.
    + rewrite (proj2 CF eq_refl), N.eqb_refl. reflexivity.
    + assert (cap ty <> 2 ^ 64)%N by (intros Q; apply CF in Q; discriminate). destruct (N.eqb_spec (cap ty - 1) (2 ^ 64 - 1)); [lia|]. unfold lgetN.
      destruct (N.ltb_spec (cap ty - 1) (N.of_nat (length (tr_store t)))); [lia|reflexivity].
Qed.
Lemma count_nodes : forall ops n t, prefix_count ops n -> tr_run ops = Ok t -> length (tr_nodes t) = n.
Proof.
  intros ops n t (ps & ND & L & H) E. destruct (run_ok ops) as (t0 & P & E0 & I). rewrite E in E0. injection E0 as <-. pose proof (iv_str _ _ _ I) as S. rewrite <- (st_len _ _ S), <- L.
  apply Nat.le_antisymm; apply NoDup_incl_length; auto using (st_nodup _ _ S); intros p Q; [apply H, (iv_pref _ _ _ I), Q|apply (iv_pref _ _ _ I), H, Q].
Qed.
Theorem width_enough : forall ops n, prefix_count ops n -> (N.of_nat n <= cap ty)%N -> exists t : wtrie A, wr_run ty ops = Ok t /\ forall k,
  (was_inserted ops k -> wr_traverse t k = Ok (last_item ops k)) /\
  (~ was_inserted ops k -> ~ zero_continues ops k -> wr_traverse t k = Ok None) /\
  (~ was_inserted ops k -> zero_continues ops k -> wr_traverse t k = if is_size_t then Ok None else UB).
Proof using Std.
  intros ops n PC B. destruct (run_ok ops) as (t & P & E & I). pose proof (count_nodes _ _ _ PC E) as L. exists (embt t). split; [apply run_sim; auto; lia|]. intros k. apply (traverse_width ops t P k E I). lia.
Qed.
(** terminal() within a trie whose nodes have numbers of their own *)
Theorem width_terminal : forall ops n (t : wtrie A), prefix_count ops n -> (N.of_nat n <= cap ty)%N -> wr_run ty ops = Ok t -> forall p, key_prefix ops p ->
  exists i m, wr_walk (wr_nodes t) 0 p = Ok (Some i) /\ nth_error (wr_nodes t) (N.to_nat i) = Some m /\
    (wn_terminal ty m = true <-> it_signed ty = true \/ (it_bits ty < 32)%N \/ exists k, was_inserted ops k /\ p = k ++ [0%N]).
Proof using Std.
  intros ops n t PC B W p Hp. destruct (run_ok ops) as (t0 & P & E & I). pose proof (count_nodes _ _ _ PC E) as L. rewrite (run_sim _ _ E) in W by lia. injection W as <-. cbn [embt wr_nodes].
  pose proof (iv_str _ _ _ I) as S. pose proof (store_nodes _ _ _ E I) as SN. rewrite <- L in B.
  change 0%N with (N.of_nat 0) at 1. rewrite (walk_sim _ P S B p 0 [] (st_root _ _ S)). destruct (walk_ok _ _ S p 0 [] (st_root _ _ S)) as [(i & -> & Ei)|[_ Ei]]; cbn [app] in Ei. 2: { destruct Ei. apply (iv_pref _ _ _ I). exact Hp. }
  pose proof (nth_error_lt _ _ _ _ Ei) as Li. rewrite (st_len _ _ S) in Li. destruct (nth_error_ex _ _ _ Li) as (m & Em). exists (N.of_nat i), (emb ty m). split; [reflexivity|]. rewrite Nnat.Nat2N.id, nth_error_map, Em. split; [reflexivity|].
  assert (Hm : item_of (tr_nodes t0) i = nd_item m) by (unfold item_of; rewrite Em; reflexivity). pose proof (max_cap ty Std) as M. pose proof (cap_128 ty Std) as C1. pose proof (cap_Z ty Std) as CZ.
  unfold wn_terminal. cbn [emb wn_item]. destruct (nd_item m) as [y|] eqn:Ny.
  - destruct (iv_some _ _ _ I _ _ _ Ei Hm) as (k & Ek & Lk & Sk). assert (Ly : y < length (tr_store t0)) by (apply nth_error_Some; congruence). split.
    + intros _. right. right. exists k. split; auto. destruct (last_item ops k) as [z|] eqn:Q; [|congruence]. eapply last_item_some; eauto.
    + intros _. destruct (it_signed ty); cbn [negb andb]. { destruct (Z.eqb_spec (Z.of_nat y) (-1)); [lia|reflexivity]. }
      destruct (32 <=? it_bits ty)%N. { destruct (Z.eqb_spec (Z.of_nat y) (2 ^ Z.of_N (it_bits ty) - 1)); [lia|reflexivity]. } destruct (Z.eqb_spec (Z.of_nat y) (-1)); [lia|reflexivity].
  - rewrite M. rewrite CZ in *. destruct (it_signed ty); cbn [negb andb]. { destruct (Z.eqb_spec (2 ^ (Z.of_N (it_bits ty) - 1) - 1) (-1)); [lia|]. split; auto. }
    destruct (N.leb_spec 32 (it_bits ty)) as [Q|Q].
    + rewrite Z.eqb_refl. cbn [negb]. split; [discriminate|]. intros [X|[X|(k & (x & X) & ->)]]; [discriminate|lia|]. pose proof (iv_none _ _ _ I _ _ Ei Hm) as LN. destruct (in_last_item _ _ _ X LN).
    + destruct (Z.eqb_spec (2 ^ Z.of_N (it_bits ty) - 1) (-1)); [lia|]. split; auto.
Qed.
End Sim2.
End Items.
