(** Reading a WaveletTree into an existing tree, whatever its alphabet, and reading back a SamcDict *)
From Coq Require Import List NArith ZArith Lia Bool Arith Sorted.
From Verif Require Import Base Spec Spec5 BitUtilModel BitUtilProof BitUtilProof2 BitVectorModel BitVectorProof BitVectorProof2 SuccinctModel SuccinctProof2 SuccinctProof3 WaveletModel WaveletProof WaveletExact
  StreamModel StreamProof SamcModel SamcWidthModel StringStreamModel StringStreamProof SamcDictProof SamcWidthProof2 SerialReach.
Import ListNotations.
Local Open Scope nat_scope.
Ltac Zify.zify_post_hook ::= idtac.

(** ** how many bytes a reader takes *)
Definition takes {A} (p : parser A) (m : nat) : Prop := forall s a s', p s = Ok (a, s') -> exists c, s = c ++ s' /\ m <= length c.

Lemma takes_ret : forall A (a : A), takes (pret a) 0.
Proof. intros A a s x s' E. injection E as <- <-. exists []. auto. Qed.
Lemma takes_bind : forall A B (p : parser A) (f : A -> parser B) m n, takes p m -> (forall a, takes (f a) n) -> takes (pbind p f) (m + n).
Proof.
  intros A B p f m n H1 H2 s b s' E. unfold pbind in E. apply bind_Ok_inv in E. destruct E as ([a s1] & E1 & E). cbn [fst snd] in E.
  destruct (H1 s a s1 E1) as (c & -> & L1). destruct (H2 a s1 b s' E) as (c' & -> & L2). exists (c ++ c'). rewrite app_assoc, app_length. split; auto. lia.
Qed.
Lemma takes_less : forall A (p : parser A) m n, takes p m -> n <= m -> takes p n.
Proof. intros A p m n H L s a s' E. destruct (H s a s' E) as (c & -> & ?). exists c. split; auto. lia. Qed.
Lemma takes_byte : takes get_byte 1.
Proof. intros [|b s] a s' E; [discriminate|]. injection E as <- <-. exists [b]. auto. Qed.
Lemma takes_prep : forall A (p : parser A) m n, takes p m -> takes (prep n p) (n * m).
Proof.
  intros A p m n H. induction n as [|n IH]; cbn [prep Nat.mul]; [apply takes_ret|]. apply takes_bind; auto. intros a. replace (n * m) with (n * m + 0) by lia. apply takes_bind; auto. intros l. apply takes_ret.
Qed.
Lemma takes_val : forall n, takes (read_val n) n.
Proof. intros n. unfold read_val. replace n with (n * 1 + 0) at 2 by lia. apply takes_bind; [apply takes_prep, takes_byte|]. intros. apply takes_ret. Qed.
Lemma takes_size : takes read_size 8.
Proof. unfold read_size. change 8 with (8 + 0) at 2. apply takes_bind; [apply takes_val|]. intros. apply takes_ret. Qed.
Lemma takes_words : takes (read_vec (read_val 8)) 8.
Proof. unfold read_vec. change 8 with (8 + 0) at 2. apply takes_bind; [apply takes_size|]. intros n. eapply takes_less; [apply takes_prep, takes_val|]. lia. Qed.
Lemma takes_sb : forall t, takes (sb_read false t) 24.
Proof.
  intros t. unfold sb_read, bv_read. change 24 with ((8 + (8 + 0)) + (8 + (0 + 0))).
  apply takes_bind; [apply takes_bind; [apply takes_size|intros; apply takes_bind; [apply takes_words|intros; apply takes_ret]]|].
  intros. apply takes_bind; [apply takes_words|]. intros. apply takes_bind; intros; apply takes_ret.
Qed.
Lemma takes_nodes : forall l, takes (wt_read_nodes l) (24 * length l).
Proof.
  induction l as [|n l IH]; cbn [wt_read_nodes length]; [apply takes_ret|]. replace (24 * S (length l)) with (24 + (24 * length l + 0)) by lia.
  apply takes_bind; [apply takes_sb|]. intros. apply takes_bind; auto. intros. apply takes_ret.
Qed.

Lemma sb_read_short : forall t, sb_read false t [] = UB.
Proof. reflexivity. Qed.

Lemma read_nodes_length : forall l s r s', wt_read_nodes l s = Ok (r, s') -> length r = length l.
Proof.
  induction l as [|n l IH]; intros s r s' E; cbn [wt_read_nodes] in E; [injection E as <- <-; auto|]. unfold pbind in E. apply bind_Ok_inv in E. destruct E as ([a s1] & _ & E). apply bind_Ok_inv in E. destruct E as ([x s2] & E1 & E). cbn [fst snd] in *. injection E as <- <-.
  cbn [length]. f_equal. eapply IH; eauto.
Qed.

(** reading a prefix of the nodes and then the others *)
Lemma read_nodes_split : forall a b s, wt_read_nodes (a ++ b) s = do r <- wt_read_nodes a s; do q <- wt_read_nodes b (snd r); Ok (fst r ++ fst q, snd q).
Proof.
  induction a as [|n a IH]; intros b s; cbn [app wt_read_nodes].
  - cbn [pret bind fst snd app]. destruct (wt_read_nodes b s) as [[r s']| | |]; reflexivity.
  - unfold pbind. destruct (sb_read false n s) as [[x s1]| | |]; cbn [bind fst snd]; auto. rewrite IH. destruct (wt_read_nodes a s1) as [[r s2]| | |]; cbn [bind fst snd pret]; auto.
    destruct (wt_read_nodes b s2) as [[q s3]| | |]; reflexivity.
Qed.

Lemma nodes_image : forall nodes target, length target = length nodes -> Forall (fun p => sb_fits p /\ sb_tips p = []) nodes -> Forall (fun p => sb_tips p = []) target ->
  forall rest, wt_read_nodes target (concat (map (sb_write false) nodes) ++ rest) = Ok (nodes, rest).
Proof. intros nodes target L F G. apply rt_nodes; auto. Qed.

(** ** the loops *)
Lemma sb_get_or : forall s i, (exists b, sb_get s i = Ok b) \/ sb_get s i = UB.
Proof.
  intros s i. unfold sb_get, bv_get, make_ref, OffsetMask, shl64. destruct (_ <? 64)%N; cbn [bind]; auto.
  unfold ref_get, wgetZ. cbn [ref_seg ref_mask]. destruct (_ <? 0)%Z; cbn [bind]; auto. unfold lget. destruct (nth_error _ _); cbn [bind]; eauto.
Qed.
Lemma lget_or : forall A (l : list A) i, (exists x, lget l i = Ok x) \/ lget l i = UB.
Proof. intros A l i. unfold lget. destruct (nth_error l i); eauto. Qed.
Lemma sb_rank_or : forall s i, (exists r, sb_rank s i = Ok r) \/ sb_rank s i = UB.
Proof.
  intros s i. unfold sb_rank, second_tip. destruct (lget_or _ (sb_block s) (i / 512 * 2)) as [(b & ->)| ->]; cbn [bind]; auto.
  destruct (lget_or _ (sb_block s) (i / 64 / 8 * 2 + 1)) as [(b1 & ->)| ->]; cbn [bind]; auto. unfold shr64. destruct (_ <? 64)%N; cbn [bind]; auto.
  destruct (lget_or _ (bv_words (sb_bits s)) (i / 64)) as [(w & ->)| ->]; cbn [bind]; auto. unfold cnt64, WidthMask, shl64. destruct (_ <? 64)%N; cbn [bind]; eauto.
Qed.
Lemma child_or : forall n b i, (exists r, wt_child n b i = Ok r) \/ wt_child n b i = UB.
Proof. intros n b i. unfold wt_child, sb_rank0. destruct (sb_rank_or n i) as [(r & ->)| ->]; destruct b; cbn [negb bind]; eauto. Qed.

(** [id] is a node of level [d] *)
Definition level (d id : nat) : Prop := 2 ^ d <= id < 2 ^ S d.
Lemma level_next : forall d id b, level d id -> level (S d) (next_id id b).
Proof. intros d id b (A & B). unfold level, next_id. rewrite !Nat.pow_succ_r' in *. destruct b; cbn [Nat.b2n]; lia. Qed.
Lemma level_root : level 0 1.
Proof. unfold level. simpl. lia. Qed.

Lemma lget_beyond : forall A (l : list A) i, length l <= i -> lget l i = UB.
Proof. intros A l i H. unfold lget. now rewrite (proj2 (nth_error_None l i)). Qed.
Lemma lget_prefix : forall A (l m : list A) i, i < length l -> lget (l ++ m) i = lget l i.
Proof. intros A l m i H. unfold lget. now rewrite nth_error_app1. Qed.

Section Low.
Variables (h h' : nat) (nodes : list sbv).
Hypothesis LN : length nodes = 2 ^ h' - 1.
Hypothesis HH : h' < h.

Lemma beyond : forall id, level h' id -> lget nodes (id - 1) = UB.
Proof using LN. clear - LN. intros id (A & _). apply lget_beyond. lia. Qed.

Lemma get_UB : forall k d id idx v, d + k = h -> d <= h' -> level d id -> wt_get_loop k nodes id idx v = UB.
Proof using LN HH.
  induction k as [|k IH]; intros d id idx v E L Lv; [reflexivity|]. destruct (Nat.eq_dec d h') as [->|N].
  - cbn [wt_get_loop]. rewrite (beyond id Lv). destruct k; reflexivity.
  - destruct k as [|k]; [lia|]. cbn [wt_get_loop]. destruct (lget_or _ nodes (id - 1)) as [(n & ->)| ->]; cbn [bind]; auto. destruct (sb_get_or n idx) as [(b & ->)| ->]; cbn [bind]; auto.
    destruct (child_or n b idx) as [(r & ->)| ->]; cbn [bind]; auto. apply (IH (S d)); try lia. now apply level_next.
Qed.
Lemma rank_UB : forall k d id idx, d + k = h -> d <= h' -> level d id -> wt_rank_loop k nodes id idx = UB.
Proof using LN HH.
  induction k as [|k IH]; intros d id idx E L Lv; [lia|]. cbn [wt_rank_loop]. destruct (Nat.eq_dec d h') as [->|N]; [now rewrite (beyond id Lv)|].
  destruct (lget_or _ nodes (id - 1)) as [(n & ->)| ->]; cbn [bind]; auto. destruct (sb_get_or n idx) as [(b & ->)| ->]; cbn [bind]; auto.
  destruct (child_or n b idx) as [(r & ->)| ->]; cbn [bind]; auto. apply (IH (S d)); try lia. now apply level_next.
Qed.
Lemma rank_c_UB : forall c k d id idx, d + k = h -> d <= h' -> level d id -> wt_rank_c_loop k nodes c id idx = UB.
Proof using LN HH.
  intros c. induction k as [|k IH]; intros d id idx E L Lv; [lia|]. cbn [wt_rank_c_loop]. destruct (Nat.eq_dec d h') as [->|N]; [now rewrite (beyond id Lv)|].
  destruct (lget_or _ nodes (id - 1)) as [(n & ->)| ->]; cbn [bind]; auto.
  destruct (child_or n (N.testbit c (N.of_nat k)) idx) as [(r & ->)| ->]; cbn [bind]; auto. apply (IH (S d)); try lia. now apply level_next.
Qed.
Lemma access_UB : forall k d id idx v, d + k = h -> d <= h' -> level d id -> wt_access_rank_loop k nodes id idx v = UB.
Proof using LN HH.
  induction k as [|k IH]; intros d id idx v E L Lv; [lia|]. cbn [wt_access_rank_loop]. destruct (Nat.eq_dec d h') as [->|N]; [now rewrite (beyond id Lv)|].
  destruct (lget_or _ nodes (id - 1)) as [(n & ->)| ->]; cbn [bind]; auto. destruct (sb_get_or n idx) as [(b & ->)| ->]; cbn [bind]; auto.
  destruct (child_or n b idx) as [(r & ->)| ->]; cbn [bind]; auto. apply (IH (S d)); try lia. now apply level_next.
Qed.
End Low.

Section High.
Variables (h : nat) (nodes more : list sbv).
Hypothesis LN : length nodes = 2 ^ h - 1.

Lemma within : forall d id, d < h -> level d id -> lget (nodes ++ more) (id - 1) = lget nodes (id - 1).
Proof using LN. intros d id H (A & B). apply lget_prefix. rewrite LN. assert (2 ^ S d <= 2 ^ h) by (apply Nat.pow_le_mono_r; lia). assert (2 ^ d <> 0) by (apply Nat.pow_nonzero; lia). lia. Qed.

Lemma get_more : forall k d id idx v, d + k = h -> level d id -> wt_get_loop k (nodes ++ more) id idx v = wt_get_loop k nodes id idx v.
Proof using LN.
  induction k as [|k IH]; intros d id idx v E Lv; [reflexivity|]. cbn [wt_get_loop]. rewrite (within d id) by (auto; lia). destruct k as [|k]; auto.
  destruct (lget nodes (id - 1)) as [n| | |]; cbn [bind]; auto. destruct (sb_get n idx) as [b| | |]; cbn [bind]; auto. destruct (wt_child n b idx); cbn [bind]; auto.
  apply (IH (S d)); try lia. now apply level_next.
Qed.
Lemma rank_more : forall k d id idx, d + k = h -> level d id -> wt_rank_loop k (nodes ++ more) id idx = wt_rank_loop k nodes id idx.
Proof using LN.
  induction k as [|k IH]; intros d id idx E Lv; [reflexivity|]. cbn [wt_rank_loop]. rewrite (within d id) by (auto; lia).
  destruct (lget nodes (id - 1)) as [n| | |]; cbn [bind]; auto. destruct (sb_get n idx) as [b| | |]; cbn [bind]; auto. destruct (wt_child n b idx); cbn [bind]; auto.
  apply (IH (S d)); try lia. now apply level_next.
Qed.
Lemma rank_c_more : forall c k d id idx, d + k = h -> level d id -> wt_rank_c_loop k (nodes ++ more) c id idx = wt_rank_c_loop k nodes c id idx.
Proof using LN.
  intros c. induction k as [|k IH]; intros d id idx E Lv; [reflexivity|]. cbn [wt_rank_c_loop]. rewrite (within d id) by (auto; lia).
  destruct (lget nodes (id - 1)) as [n| | |]; cbn [bind]; auto. destruct (wt_child n _ idx); cbn [bind]; auto.
  apply (IH (S d)); try lia. now apply level_next.
Qed.
Lemma access_more : forall k d id idx v, d + k = h -> level d id -> wt_access_rank_loop k (nodes ++ more) id idx v = wt_access_rank_loop k nodes id idx v.
Proof using LN.
  induction k as [|k IH]; intros d id idx v E Lv; [reflexivity|]. cbn [wt_access_rank_loop]. rewrite (within d id) by (auto; lia).
  destruct (lget nodes (id - 1)) as [n| | |]; cbn [bind]; auto. destruct (sb_get n idx) as [b| | |]; cbn [bind]; auto. destruct (wt_child n b idx); cbn [bind]; auto.
  apply (IH (S d)); try lia. now apply level_next.
Qed.
End High.

Lemma wt_tips : forall l t, wt_make l = Ok t -> Forall (fun p => sb_tips p = []) (wt_nodes t).
Proof.
  intros l t E. unfold wt_make in E. destruct l as [|a l']; [discriminate|]. apply bind_Ok_inv in E. destruct E as (h & _ & E). destruct (32 <=? h); [discriminate|].
  apply bind_Ok_inv in E. destruct E as (src & _ & E). apply bind_Ok_inv in E. destruct E as (nodes & En & E). assert (T : wt_nodes t = nodes) by (injection E as <-; reflexivity). rewrite T.
  apply Forall_forall. intros n I. destruct (mapM_In src nodes n En I) as (v & _ & Ev). unfold sb_build in Ev. destruct (bv_size v =? 0); [injection Ev as <-; auto|].
  apply bind_Ok_inv in Ev. destruct Ev as (b & _ & Ev). apply bind_Ok_inv in Ev. destruct Ev as (x & Ex & Ev). injection Ex as <-. injection Ev as <-. reflexivity.
Qed.

Lemma wt_shape : forall l t, wt_make l = Ok t -> length (wt_nodes t) = 2 ^ wt_height t - 1 /\ 1 <= wt_height t /\ wt_size t = Ok (length l).
Proof.
  intros l t E. destruct (wt_make_small l t E) as (Hl & F). destruct (wt_make_ok l Hl F) as (t' & E' & (L & _) & _ & H1 & _). destruct (wt_size_ok l Hl F) as (t2 & E2 & Z).
  assert (t' = t) by congruence. assert (t2 = t) by congruence. subst. auto.
Qed.

(** the head of the image: height_, leafs_ and size_ *)
Lemma wt_read_head : forall t target rest, wt_fits t ->
  wt_read target (wt_write t ++ rest) = do r <- wt_read_nodes (wt_nodes target) (concat (map (sb_write false) (wt_nodes t)) ++ rest); Ok (WT (wt_height t) (wt_leafs t) (fst r), snd r).
Proof.
  intros t target rest (A & B & _). unfold wt_read, wt_write. unfold pbind at 1. rewrite <- app_assoc, (rt_size _ A). cbn [bind fst snd]. unfold pbind at 1. rewrite <- app_assoc, rt_val by exact B. cbn [bind fst snd].
  unfold pbind at 1. rewrite <- app_assoc, rt_size by reflexivity. cbn [bind fst snd]. reflexivity.
Qed.

Section Read.
Variables (l l' : list N) (t target : wavelet).
Hypothesis MT : wt_make l = Ok t.
Hypothesis MG : wt_make l' = Ok target.
Hypothesis SZ : (N.of_nat (length l) < 2 ^ 63)%N.

Theorem read_same : wt_height target = wt_height t -> forall rest, wt_read target (wt_write t ++ rest) = Ok (t, rest).
Proof using MT MG SZ.
  intros E. destruct (wt_shape l t MT) as (L & _), (wt_shape l' target MG) as (L' & _). apply rt_wt; [eapply wt_make_fits; eauto|congruence|eapply wt_tips; eauto].
Qed.

Theorem read_lower : wt_height target < wt_height t -> exists front back u, wt_write t = front ++ back /\ back <> [] /\
  (forall rest, wt_read target (wt_write t ++ rest) = Ok (u, back ++ rest)) /\ wt_size u = Ok (length l) /\
  forall i, wt_get u i = UB /\ wt_rank u i = UB /\ wt_access_and_rank u i = UB /\ forall c, wt_rank_c u c i = UB.
Proof using MT MG SZ.
  intros HH. destruct (wt_shape l t MT) as (L & H1 & Z), (wt_shape l' target MG) as (L' & H1' & _). pose proof (wt_make_fits l t MT SZ) as F. set (k := length (wt_nodes target)) in *.
  assert (P : 2 ^ S (wt_height target) <= 2 ^ wt_height t) by (apply Nat.pow_le_mono_r; lia). rewrite Nat.pow_succ_r' in P. assert (P2 : 2 ^ 1 <= 2 ^ wt_height target) by (apply Nat.pow_le_mono_r; lia). rewrite Nat.pow_1_r in P2.
  assert (KL : 1 <= k < length (wt_nodes t)) by lia.
  set (back := concat (map (sb_write false) (skipn k (wt_nodes t)))). set (u := WT (wt_height t) (wt_leafs t) (firstn k (wt_nodes t))).
  exists (write_size (wt_height t) ++ write_val 8 (wt_leafs t) ++ write_size 0 ++ concat (map (sb_write false) (firstn k (wt_nodes t)))), back, u.
  assert (SP : concat (map (sb_write false) (wt_nodes t)) = concat (map (sb_write false) (firstn k (wt_nodes t))) ++ back) by (unfold back; rewrite <- concat_app, <- map_app, firstn_skipn; reflexivity).
  split; [unfold wt_write; rewrite SP, <- !app_assoc; reflexivity|]. split.
  { unfold back. destruct (skipn k (wt_nodes t)) as [|x xs] eqn:Es; [apply (f_equal (@length sbv)) in Es; rewrite skipn_length in Es; cbn [length] in Es; lia|]. cbn [map concat]. unfold sb_write, bv_write, write_size, write_val. cbn. discriminate. }
  assert (LU : length (wt_nodes u) = 2 ^ wt_height target - 1) by (unfold u; cbn [wt_nodes]; rewrite firstn_length; lia).
  split; [|split].
  - intros rest. rewrite wt_read_head by auto. rewrite SP, <- app_assoc. destruct F as (_ & _ & F). rewrite nodes_image; auto.
    + rewrite firstn_length. fold k. lia.
    + rewrite <- (firstn_skipn k) in F. apply Forall_app in F. tauto.
    + eapply wt_tips; eauto.
  - unfold wt_size in *. rewrite <- Z. unfold u. cbn [wt_nodes]. destruct (wt_nodes t) as [|x xs]; [simpl in KL; lia|]. destruct k; [lia|]. reflexivity.
  - assert (HU : wt_height u = wt_height t) by reflexivity. intros i. unfold wt_get, wt_rank, wt_access_and_rank, wt_rank_c. rewrite HU.
    split; [apply (get_UB (wt_height t) (wt_height target)) with 0; auto using level_root; lia|]. split; [apply (rank_UB (wt_height t) (wt_height target)) with 0; auto using level_root; lia|].
    split; [apply (access_UB (wt_height t) (wt_height target)) with 0; auto using level_root; lia|]. intros c. apply (rank_c_UB (wt_height t) (wt_height target)) with 0; auto using level_root; lia.
Qed.

Theorem read_higher : wt_height t < wt_height target -> wt_read target (wt_write t) = UB /\
  forall rest u s, wt_read target (wt_write t ++ rest) = Ok (u, s) -> (exists taken, rest = taken ++ s /\ 24 * (2 ^ wt_height target - 2 ^ wt_height t) <= length taken) /\ wt_size u = Ok (length l) /\
    forall i, wt_get u i = wt_get t i /\ wt_rank u i = wt_rank t i /\ wt_access_and_rank u i = wt_access_and_rank t i /\ forall c, wt_rank_c u c i = wt_rank_c t c i.
Proof using MT MG SZ.
  intros HH. destruct (wt_shape l t MT) as (L & H1 & Z), (wt_shape l' target MG) as (L' & H1' & _). pose proof (wt_make_fits l t MT SZ) as F. set (k := length (wt_nodes t)) in *.
  assert (P : 2 ^ S (wt_height t) <= 2 ^ wt_height target) by (apply Nat.pow_le_mono_r; lia). rewrite Nat.pow_succ_r' in P. assert (P2 : 2 ^ 1 <= 2 ^ wt_height t) by (apply Nat.pow_le_mono_r; lia). rewrite Nat.pow_1_r in P2.
  assert (KL : 1 <= k < length (wt_nodes target)) by lia.
  assert (RD : forall rest, wt_read target (wt_write t ++ rest) = do q <- wt_read_nodes (skipn k (wt_nodes target)) rest; Ok (WT (wt_height t) (wt_leafs t) (wt_nodes t ++ fst q), snd q)).
  { intros rest. rewrite wt_read_head by auto. rewrite <- (firstn_skipn k (wt_nodes target)) at 1. rewrite read_nodes_split. destruct F as (_ & _ & F). rewrite nodes_image; auto.
    - cbn [bind fst snd]. destruct (wt_read_nodes _ rest) as [[q s]| | |]; reflexivity.
    - rewrite firstn_length. fold k. lia.
    - pose proof (wt_tips l' target MG) as T. rewrite <- (firstn_skipn k) in T. apply Forall_app in T. tauto. }
  split.
  - rewrite <- (app_nil_r (wt_write t)), RD. destruct (skipn k (wt_nodes target)) as [|x xs] eqn:Es; [apply (f_equal (@length sbv)) in Es; rewrite skipn_length in Es; cbn [length] in Es; lia|]. reflexivity.
  - intros rest u s E. rewrite RD in E. apply bind_Ok_inv in E. destruct E as ([q s'] & Eq & E). cbn [fst snd] in E. injection E as <- <-. split; [|split].
    + destruct (takes_nodes _ _ _ _ Eq) as (c & Ec & Lc). exists c. split; auto. rewrite skipn_length in Lc. lia.
    + unfold wt_size in *. rewrite <- Z. cbn [wt_nodes]. rewrite lget_prefix; auto. fold k. lia.
    + intros i. unfold wt_get, wt_rank, wt_access_and_rank, wt_rank_c. cbn [wt_height wt_nodes]. split; [apply (get_more (wt_height t)) with 0; auto using level_root|]. split; [apply (rank_more (wt_height t)) with 0; auto using level_root|].
      split; [apply (access_more (wt_height t)) with 0; auto using level_root|]. intros c. apply (rank_c_more (wt_height t)) with 0; auto using level_root.
Qed.
End Read.

Theorem dict_stream : forall cw fuel K t, In cw [1; 2; 4; 8] -> K <> [] -> StronglySorted lex_lt K -> (forall k, In k K -> Forall (fun c => (0 < c < 256)%N) k) -> (forall k, In k K -> length k < fuel) ->
  sd_build fuel K = Ok t -> (N.of_nat (length (sm_storage (sd_samc t))) < 2 ^ 63)%N ->
  forall t', sd_build_w cw fuel K = Ok t' -> forall target rest, dict_read cw target (dict_write cw t' ++ rest) = Ok (t', rest).
Proof.
  intros cw fuel K t Hcw HN HS HB HF E0 Sz t' E target. assert (t' = t) by (eapply width_dict; eauto). subst t'.
  destruct (width_accept cw false fuel K Hcw HN HS HB HF) as (s & BS & X). unfold sd_build_w in E. apply bind_Ok_inv in E. destruct E as (s' & E1 & E). apply bind_Ok_inv in E. destruct E as (src & E2 & E). apply bind_Ok_inv in E. destruct E as (lv & E3 & E).
  assert (T : t = {| sd_samc := s'; sd_leaves := lv |}) by congruence. subst t. cbn [sd_samc] in *.
  assert (Es : s = s'). { unfold sd_build in E0. rewrite BS in E0. cbn [bind] in E0. apply bind_Ok_inv in E0. destruct E0 as (? & _ & E0). apply bind_Ok_inv in E0. destruct E0 as (? & _ & E0). congruence. }
  subst s'. destruct (X Sz) as (_ & X2). destruct (X2 s E1) as (_ & _ & RS & _).
  assert (R : exists lb, bv_rep src lb /\ length lb = length (sm_storage s)).
  { destruct (length (sm_storage s)) as [|n] eqn:En; [injection E2 as <-; exists []; split; auto; apply (bv_sized_rep 0)|]. destruct (leaves_ok s n ltac:(lia)) as (v & Ev & Rv).
    replace (S n - 1) with n in E2 by lia. rewrite En in *. rewrite Ev in E2. injection E2 as <-. eexists. split; [apply bv_reach_rep; exact Rv|]. rewrite map_length, seq_length. auto. }
  destruct R as (lb & R & Lb). destruct (sb_build_fits true src lb lv R ltac:(rewrite Lb; auto) E3) as (FB & _).
  unfold dict_read, dict_write. cbn [sd_samc sd_leaves]. apply rt_bind with s; [exact RS|]. apply rt_last with (f := fun l => {| sd_samc := s; sd_leaves := l |}). apply rt_sb; auto. discriminate.
Qed.
