(** Proofs about StreamModel.v *)
From Coq Require Import List NArith ZArith Lia Bool Arith.
From Verif Require Import Base Spec BitUtilModel BitUtilProof BitUtilProof2 BitVectorModel SuccinctModel FitVectorModel DacModel MultiBitModel WaveletModel StreamModel.
Import ListNotations.
Local Open Scope nat_scope.

(** [p] reads back [a] from [w], whatever follows *)
Definition rt {A} (p : parser A) (w : list N) (a : A) : Prop := forall rest, p (w ++ rest) = Ok (a, rest).

Lemma rt_ret : forall A (a : A), rt (pret a) [] a.
Proof. intros A a rest. reflexivity. Qed.
Lemma rt_bind : forall A B (p : parser A) (f : A -> parser B) w1 w2 a b, rt p w1 a -> rt (f a) w2 b -> rt (pbind p f) (w1 ++ w2) b.
Proof. intros A B p f w1 w2 a b H1 H2 rest. unfold pbind. rewrite <- app_assoc, H1. cbn [bind fst snd]. apply H2. Qed.
Lemma rt_last : forall A B (p : parser A) (f : A -> B) w a, rt p w a -> rt (pbind p (fun x => pret (f x))) w (f a).
Proof. intros A B p f w a H rest. unfold pbind. rewrite H. reflexivity. Qed.
Lemma rt_silent : forall A B (p : parser A) (f : A -> parser B) w a b, rt p [] a -> rt (f a) w b -> rt (pbind p f) w b.
Proof. intros A B p f w a b H1 H2. apply (rt_bind A B p f [] w a b); auto. Qed.

Lemma rt_prep : forall A (p : parser A) (w : A -> list N) l, Forall (fun a => rt p (w a) a) l -> rt (prep (length l) p) (concat (map w l)) l.
Proof.
  induction 1; cbn [length prep map concat]; [apply rt_ret|]. apply rt_bind with x; auto. apply rt_last with (f := fun l => x :: l). auto.
Qed.

Lemma rt_bytes : forall l, rt (prep (length l) get_byte) l l.
Proof.
  intros. assert (H : Forall (fun b => rt get_byte [b] b) l) by (apply Forall_forall; intros b _ rest; reflexivity).
  apply rt_prep in H. replace (concat (map (fun b => [b]) l)) with l in H; auto. clear. induction l; simpl; congruence.
Qed.

Lemma le_length : forall n x, length (le_bytes n x) = n.
Proof. induction n; intros; simpl; auto. Qed.

Lemma le_round : forall n x, (x < 256 ^ N.of_nat n)%N -> le_value (le_bytes n x) = x.
Proof.
  induction n; intros x H.
  - simpl in *. lia.
  - cbn [le_bytes le_value]. rewrite IHn.
    + rewrite (N.div_mod x 256) at 3 by lia. lia.
    + apply N.div_lt_upper_bound; [lia|]. rewrite Nat2N.inj_succ, N.pow_succ_r' in H. exact H.
Qed.

Lemma rt_val : forall n x, (x < 2 ^ N.of_nat (8 * n))%N -> rt (read_val n) (write_val n x) x.
Proof.
  intros n x H. unfold read_val, write_val.
  assert (E : le_value (le_bytes n x) = x).
  { apply le_round. change 256%N with (2 ^ 8)%N. rewrite <- N.pow_mul_r. now replace (8 * N.of_nat n)%N with (N.of_nat (8 * n)) by lia. }
  intros rest. pose proof (rt_bytes (le_bytes n x) rest) as R. rewrite le_length in R. unfold pbind. rewrite R. cbn [bind fst snd].
  now rewrite E.
Qed.

Lemma rt_size : forall n, size_fits n -> rt read_size (write_size n) n.
Proof.
  intros n H. unfold read_size, write_size. intros rest. unfold pbind. rewrite rt_val by exact H. cbn [bind fst snd]. now rewrite Nat2N.id.
Qed.

Lemma rt_vec : forall A (p : parser A) w l, size_fits (length l) -> Forall (fun a => rt p (w a) a) l -> rt (read_vec p) (write_vec w l) l.
Proof. intros. unfold read_vec, write_vec. apply rt_bind with (length l); [now apply rt_size|]. now apply rt_prep. Qed.

Lemma rt_string : forall l, size_fits (length l) -> rt read_string (write_string l) l.
Proof. intros. unfold read_string, write_string. apply rt_bind with (length l); [now apply rt_size|]. apply rt_bytes. Qed.

Lemma rt_words : forall l, size_fits (length l) -> Forall word_fits l -> rt (read_vec (read_val 8)) (write_vec (write_val 8) l) l.
Proof. intros. apply rt_vec; auto. eapply Forall_impl; [|exact H0]. intros x Hx. apply rt_val. exact Hx. Qed.

Lemma rt_bv : forall v, bv_fits v -> rt bv_read (bv_write v) v.
Proof.
  intros [n ws] (A & B & C). cbn [bv_size bv_words] in *. unfold bv_read, bv_write. cbn [bv_size bv_words].
  apply rt_bind with n; [now apply rt_size|]. apply rt_last with (f := fun ws => BV n ws). now apply rt_words.
Qed.

Lemma rt_sb : forall us s target, sb_fits s -> (us = false -> sb_tips s = sb_tips target) -> rt (sb_read us target) (sb_write us s) s.
Proof.
  intros us [b k t] target (A & B & C & D & E) H. cbn [sb_bits sb_block sb_tips] in *. unfold sb_read, sb_write. cbn [sb_bits sb_block sb_tips].
  apply rt_bind with b; [now apply rt_bv|]. apply rt_bind with k; [now apply rt_words|].
  apply (rt_last _ _ _ (fun tips => SBV b k tips) _ t). destruct us.
  - apply rt_vec; auto. eapply Forall_impl; [|exact E]. intros x Hx. apply rt_val. exact Hx.
  - rewrite H by auto. apply rt_ret.
Qed.

Lemma rt_fv : forall v, fv_fits v -> fv_width v < 64 -> rt fv_read (fv_write v) v.
Proof.
  intros [w n ws] (A & B & C & D) Hw. cbn [fv_width fv_size fv_words] in *. unfold fv_read, fv_write. cbn [fv_width fv_size fv_words].
  apply rt_bind with w; [now apply rt_size|].
  apply rt_silent with (N.ones (N.of_nat w)); [intros rest; simpl app; rewrite WidthMask_ones by lia; reflexivity|].
  apply rt_bind with n; [now apply rt_size|]. apply rt_last with (f := fun ws => FV w n ws). now apply rt_words.
Qed.

Lemma fv_read_64 : forall v rest, fv_fits v -> 64 <= fv_width v -> fv_read (fv_write v ++ rest) = UB.
Proof.
  intros v rest (A & _) H. unfold fv_read, fv_write, pbind. rewrite <- app_assoc, (rt_size _ A). cbn [bind fst snd].
  unfold WidthMask, shl64. destruct (N.ltb_spec (N.of_nat (fv_width v)) 64); [lia|reflexivity].
Qed.

Lemma rt_dac : forall d, dac_shape d -> dac_fits d -> exists w, dac_write d = Ok w /\ rt dac_read w d.
Proof.
  intros [m us ls ps] (n & En & Lu & Ll & Lp) (A & B & C & D). cbn [dac_num dac_units dac_layers dac_paths] in *. subst m.
  unfold dac_write. cbn [dac_num dac_units dac_layers dac_paths]. eexists. split; [reflexivity|]. unfold dac_read.
  rewrite Lu in A. apply rt_bind with n; [now apply rt_size|].
  apply rt_bind with us. { rewrite <- Lu. apply rt_prep. eapply Forall_impl; [|exact B]. intros. now apply rt_size. }
  apply rt_bind with ls. { rewrite <- Ll. apply rt_prep. eapply Forall_impl; [|exact C]. intros a (X & Y). now apply rt_fv. }
  apply (rt_last _ _ _ (fun ps => Dac (Some n) us ls ps) _ ps).
  assert (P : rt (prep (length ps) (sb_read false sb_default)) (concat (map (sb_write false) ps)) ps).
  { apply rt_prep. eapply Forall_impl; [|exact D]. intros a (X & Y). now apply rt_sb. }
  destruct (Nat.ltb_spec 1 n).
  - rewrite <- Lp. exact P.
  - assert (length ps = 0) by lia. destruct ps; [|simpl in *; lia]. exact P.
Qed.

Lemma rt_tip : forall U t, U = 1 \/ U = 2 \/ U = 3 -> tip_fits U t -> rt (tip_read U) (tip_write U t) t.
Proof.
  intros U [l1 l2] HU (A & B & C). cbn [tip_L1 tip_L2] in *. unfold tip_read, tip_write. cbn [tip_L1 tip_L2].
  apply rt_bind with l1; [now apply rt_val|]. 
  replace (kBlocksInTipSize U) with (length l2) by (rewrite B; destruct HU as [->|[->| ->]]; reflexivity).
  apply rt_bind with l2; [apply rt_bytes|].
  intros rest. unfold pbind. pose proof (rt_bytes (repeat 0%N (tip_pad U)) rest) as R. rewrite repeat_length in R. rewrite R. reflexivity.
Qed.

Lemma rt_mb : forall U v, U = 1 \/ U = 2 \/ U = 3 -> mb_fits U v -> rt (mb_read U) (mb_write U v) v.
Proof.
  intros U [b ts] HU (A & B & C & D). cbn [mb_bits mb_tips] in *. unfold mb_read, mb_write. cbn [mb_bits mb_tips].
  apply rt_bind with b; [now apply rt_words|]. apply rt_last with (f := fun ts => MB b ts).
  replace (kMaxNumTypes U) with (length ts) by auto. apply rt_prep. eapply Forall_impl; [|exact D].
  intros l (X & Y). apply rt_vec; auto. eapply Forall_impl; [|exact Y]. intros. now apply rt_tip.
Qed.

Lemma rt_nodes : forall nodes target, length target = length nodes -> Forall (fun p => sb_fits p /\ sb_tips p = []) nodes ->
  Forall (fun p => sb_tips p = []) target -> rt (wt_read_nodes target) (concat (map (sb_write false) nodes)) nodes.
Proof.
  induction nodes; intros [|t target] L F G; simpl in L; try lia; cbn [wt_read_nodes map concat]; [apply rt_ret|].
  inversion F as [|? ? (Fa & Ta) Fn]. inversion G as [|? ? Gt Gn].
  apply rt_bind with a; [apply rt_sb; auto; congruence|]. apply rt_last with (f := fun l => a :: l). apply IHnodes; auto.
Qed.

Lemma rt_wt : forall t target, wt_fits t -> length (wt_nodes target) = length (wt_nodes t) -> Forall (fun p => sb_tips p = []) (wt_nodes target) ->
  rt (wt_read target) (wt_write t) t.
Proof.
  intros [h lf ns] target (A & B & C) L G. cbn [wt_height wt_leafs wt_nodes] in *. unfold wt_read, wt_write. cbn [wt_height wt_leafs wt_nodes].
  apply rt_bind with h; [now apply rt_size|]. apply rt_bind with lf; [now apply rt_val|].
  apply rt_bind with 0; [apply rt_size; vm_compute; reflexivity|]. apply rt_last with (f := fun ns => WT h lf ns). now apply rt_nodes.
Qed.

(** ** sizes *)
Lemma len_concat : forall A (w : A -> list N) n l, (forall a, In a l -> length (w a) = n) -> length (concat (map w l)) = n * length l.
Proof.
  induction l; intros H; simpl; [lia|]. rewrite app_length, IHl by (intros; apply H; now right). rewrite (H a) by now left. lia.
Qed.
Lemma len_sum : forall A (w : A -> list N) l, length (concat (map w l)) = list_sum_nat (map (fun a => length (w a)) l).
Proof. induction l; simpl; auto. rewrite app_length, IHl. reflexivity. Qed.
Lemma sum_ext : forall A (f g : A -> nat) l, (forall a, In a l -> f a = g a) -> list_sum_nat (map f l) = list_sum_nat (map g l).
Proof. intros. f_equal. apply map_ext_in. auto. Qed.
Lemma len_vec : forall A (w : A -> list N) n l, (forall a, In a l -> length (w a) = n) -> length (write_vec w l) = size_vec n l.
Proof. intros. unfold write_vec, size_vec. rewrite app_length, (len_concat A w n) by auto. unfold write_size, write_val. rewrite le_length. lia. Qed.
Lemma len_size : forall n, length (write_size n) = 8.
Proof. intros. apply le_length. Qed.

Lemma bv_size_bytes : forall v, bv_size_in_bytes v = length (bv_write v).
Proof. intros. unfold bv_size_in_bytes, bv_write. rewrite app_length, len_size, (len_vec _ _ 8) by (intros; apply le_length). reflexivity. Qed.
Lemma sb_size_bytes : forall us s, sb_size_in_bytes us s = length (sb_write us s).
Proof.
  intros. unfold sb_size_in_bytes, sb_write. rewrite !app_length, bv_size_bytes, (len_vec _ _ 8) by (intros; apply le_length).
  destruct us; [rewrite (len_vec _ _ 4) by (intros; apply le_length)|]; simpl; lia.
Qed.
Lemma fv_size_bytes : forall v, fv_size_in_bytes v = length (fv_write v).
Proof. intros. unfold fv_size_in_bytes, fv_write. rewrite !app_length, !len_size, (len_vec _ _ 8) by (intros; apply le_length). lia. Qed.

Lemma mb_size_bytes : forall U v, mb_fits U v -> mb_size_in_bytes U v = length (mb_write U v).
Proof.
  intros U v (A & B & C & D). unfold mb_size_in_bytes, mb_write. rewrite app_length, (len_vec _ _ 8) by (intros; apply le_length). f_equal.
  rewrite len_sum. apply sum_ext. intros ts Hts. symmetry. apply len_vec. intros t Ht.
  rewrite Forall_forall in D. destruct (D ts Hts) as (_ & X). rewrite Forall_forall in X. destruct (X t Ht) as (_ & Y & _).
  unfold tip_write. rewrite !app_length, repeat_length, Y. unfold write_val. rewrite le_length. unfold kBlocksInTipSize.
  replace (256 * U / 64) with (4 * U); [lia|]. symmetry. replace (256 * U) with (4 * U * 64) by lia. apply Nat.div_mul. lia.
Qed.

Lemma wt_size_bytes : forall t, wt_size_in_bytes t = length (wt_write t).
Proof.
  intros. unfold wt_size_in_bytes, wt_write. rewrite !app_length, !len_size. unfold write_val. rewrite le_length, len_sum.
  rewrite (sum_ext _ (fun a => length (sb_write false a)) (sb_size_in_bytes false)) by (intros; symmetry; apply sb_size_bytes). lia.
Qed.

Lemma fold_sizes : forall A (l : list A) (f : A -> nat) k s, k <= length l ->
  foldM (fun s i => do x <- lget l i; Ok (s + f x)) (seq 0 k) s = Ok (s + list_sum_nat (map f (firstn k l))).
Proof.
  intros A l f. induction k; intros s Hk.
  - simpl. f_equal. lia.
  - rewrite seq_S, foldM_app, IHk by lia. cbn [bind foldM]. rewrite Nat.add_0_l. 
    destruct (nth_error l k) as [x|] eqn:E; [|apply nth_error_None in E; lia]. unfold lget. rewrite E. cbn [bind]. f_equal.
    assert (F : firstn (S k) l = firstn k l ++ [x]).
    { clear - E. revert l E. induction k; intros [|a l] E; simpl in *; try discriminate; [congruence|]. f_equal. auto. }
    rewrite F, map_app. assert (G : forall a b, list_sum_nat (a ++ b) = list_sum_nat a + list_sum_nat b).
    { induction a; intros; simpl; auto. fold (list_sum_nat (a0 ++ b)). fold (list_sum_nat a0). rewrite IHa. lia. }
    rewrite G. simpl. lia.
Qed.

Lemma dac_size_bytes : forall d, dac_shape d -> exists w, dac_write d = Ok w /\ dac_size_in_bytes d = Ok (length w + 8).
Proof.
  intros d (n & En & Lu & Ll & Lp). unfold dac_write, dac_size_in_bytes. rewrite En. eexists. split; [reflexivity|].
  rewrite fold_sizes by lia. cbn [bind]. rewrite fold_sizes by lia. f_equal.
  rewrite !firstn_all2 by lia. rewrite !app_length, len_size, (len_concat _ _ 8) by (intros; apply len_size). rewrite !len_sum.
  rewrite (sum_ext _ (fun a => length (fv_write a)) fv_size_in_bytes) by (intros; symmetry; apply fv_size_bytes).
  rewrite (sum_ext _ (fun a => length (sb_write false a)) (sb_size_in_bytes false)) by (intros; symmetry; apply sb_size_bytes).
  unfold size_vec. lia.
Qed.

Lemma tip_layout : forall U t, U = 1 \/ U = 2 \/ U = 3 -> length (tip_L2 t) = kBlocksInTipSize U ->
  let used := 8 + length (tip_L2 t) in let total := length (tip_write U t) in total mod 8 = 0 /\ used <= total < used + 8.
Proof.
  intros U t HU L. cbv zeta. unfold tip_write. rewrite !app_length, repeat_length, L. unfold write_val. rewrite le_length.
  destruct HU as [ -> | [ -> | -> ] ]; cbn; lia.
Qed.
