(** Proofs about MultiBitModel.v *)
From Coq Require Import List NArith ZArith Lia Bool Arith.
From Verif Require Import Base Spec Spec2 BitUtilModel BitUtilProof BitUtilProof2 BitVectorProof MultiBitModel.
Import ListNotations.
Local Open Scope nat_scope.

Definition per (U : nat) : nat := 64 / U.
Definition okU (U : nat) : Prop := U = 1 \/ U = 2 \/ U = 3.

Lemma per_facts : forall U, okU U -> 1 <= per U /\ per U * U <= 64 /\ kBitsInType U = per U * U /\ kBitsInType U / U = per U /\
  kBlocksInTipSize U = 4 * U /\ 1 <= U <= 3 /\ (4 * U - 1) * per U < 256.
Proof. intros U [->|[->| ->]]; vm_compute; repeat split; auto; lia. Qed.

Lemma mb_abs_per : forall U i, okU U -> mb_abs U i = i / per U.
Proof. intros. unfold mb_abs. now rewrite (proj1 (proj2 (proj2 (proj2 (per_facts U H))))). Qed.
Lemma mb_rel_per : forall U i, okU U -> mb_rel U i = (i mod per U) * U.
Proof.
  intros. unfold mb_rel. destruct (per_facts U H) as (A & B & C & D & E & F & G). rewrite C. apply Nat.mul_mod_distr_r; lia.
Qed.
Lemma mb_rel_bound : forall U i, okU U -> (i mod per U) * U + U <= 64.
Proof.
  intros. destruct (per_facts U H) as (A & B & C & D & E & F & G). pose proof (Nat.mod_upper_bound i (per U) ltac:(lia)). nia.
Qed.

Lemma field_bits : forall k x j b, N.testbit (field k x j) b = (b <? N.of_nat k)%N && N.testbit x (b + N.of_nat (j * k))%N.
Proof.
  intros. unfold field. destruct (N.ltb_spec b (N.of_nat k)); cbn [andb].
  - rewrite N.mod_pow2_bits_low by auto. apply N.shiftr_spec'.
  - apply N.mod_pow2_bits_high. auto.
Qed.

Lemma mask_ones : forall U, kBitsMask U = N.ones (N.of_nat U).
Proof. intros. unfold kBitsMask. now rewrite N.ones_equiv, N.sub_1_r. Qed.

Lemma field_lt : forall k x j, (field k x j < 2 ^ N.of_nat k)%N.
Proof. intros. unfold field. apply N.mod_upper_bound, N.pow_nonzero. lia. Qed.

Definition elem (U : nat) (ws : list N) (i : nat) : N := field U (nth (i / per U) ws 0%N) (i mod per U).

Lemma div_lt_mul : forall i e n, 1 <= e -> (i / e < n <-> i < e * n).
Proof.
  intros i e n He. pose proof (Nat.div_mod i e ltac:(lia)) as D. pose proof (Nat.mod_upper_bound i e ltac:(lia)) as M.
  set (q := i / e) in *. set (r := i mod e) in *. clearbody q r. split; intros; [|]; nia.
Qed.

Lemma mb_get_elem : forall U v i, okU U -> i < per U * length (mb_bits v) -> mb_get U v i = Ok (elem U (mb_bits v) i).
Proof.
  intros U v i HU Hi. unfold mb_get. rewrite mb_abs_per, mb_rel_per by auto.
  destruct (per_facts U HU) as (A & B & C & D & E & F & G). pose proof (mb_rel_bound U i HU) as R.
  rewrite (lget_nth _ _ _ 0%N) by (apply div_lt_mul; auto). cbn [bind].
  rewrite shr64_Ok by lia. cbn [bind]. rewrite mask_ones, N.land_ones. reflexivity.
Qed.

Definition set_word (U : nat) (w : N) (r : nat) (x : N) : N :=
  N.lor (N.land w (wnot (wshl (kBitsMask U) (N.of_nat (r * U))))) (wshl x (N.of_nat (r * U))).

Lemma wshl_bits : forall x k i, N.testbit (wshl x k) i = (i <? 64)%N && (k <=? i)%N && N.testbit x (i - k).
Proof.
  intros. unfold wshl, wrap64. destruct (N.ltb_spec i 64); cbn [andb].
  - rewrite N.mod_pow2_bits_low by auto. destruct (N.leb_spec k i); cbn [andb]; [now apply N.shiftl_spec_high'|now apply N.shiftl_spec_low].
  - now apply N.mod_pow2_bits_high.
Qed.

Lemma wnot_bits : forall x i, (x < 2 ^ 64)%N -> N.testbit (wnot x) i = (i <? 64)%N && negb (N.testbit x i).
Proof.
  intros. unfold wnot. destruct (N.ltb_spec i 64); cbn [andb].
  - now apply N.lnot_spec_low.
  - rewrite N.lnot_spec_high by auto. rewrite <- (N.mod_small x (2 ^ 64)) by auto. now apply N.mod_pow2_bits_high.
Qed.

Lemma wshl_lt : forall x k, (wshl x k < 2 ^ 64)%N.
Proof. intros. unfold wshl, wrap64. apply N.mod_upper_bound. discriminate. Qed.

Lemma bits_lt : forall x, (forall i, (64 <= i)%N -> N.testbit x i = false) -> (x < 2 ^ 64)%N.
Proof.
  intros x H. assert (E : x = (x mod 2 ^ 64)%N).
  { apply N.bits_inj. intro i. destruct (N.lt_ge_cases i 64).
    - now rewrite N.mod_pow2_bits_low.
    - rewrite N.mod_pow2_bits_high by auto. auto. }
  rewrite E. apply N.mod_upper_bound. discriminate.
Qed.

Lemma lt_bits : forall x i, (x < 2 ^ 64)%N -> (64 <= i)%N -> N.testbit x i = false.
Proof. intros. rewrite <- (N.mod_small x (2 ^ 64)) by auto. now apply N.mod_pow2_bits_high. Qed.

Lemma set_word_lt : forall U w r x, (w < 2 ^ 64)%N -> (set_word U w r x < 2 ^ 64)%N.
Proof.
  intros. apply bits_lt. intros i Hi. unfold set_word. rewrite N.lor_spec, N.land_spec, (lt_bits w) by auto. cbn [andb orb].
  apply lt_bits; auto. apply wshl_lt.
Qed.

Lemma bits_below : forall x k i, (x < 2 ^ k)%N -> (k <= i)%N -> N.testbit x i = false.
Proof. intros. rewrite <- (N.mod_small x (2 ^ k)) by auto. now apply N.mod_pow2_bits_high. Qed.

Lemma set_word_field : forall U w r x j, okU U -> r * U + U <= 64 -> j * U + U <= 64 -> (x < 2 ^ N.of_nat U)%N ->
  field U (set_word U w r x) j = if j =? r then x else field U w j.
Proof.
  intros U w r x j HU Hr Hj Hx. apply N.bits_inj. intro b. rewrite field_bits. unfold set_word.
  destruct (per_facts U HU) as (_ & _ & _ & _ & _ & F & _).
  destruct (N.ltb_spec b (N.of_nat U)); cbn [andb].
  - rewrite N.lor_spec, N.land_spec, wnot_bits, !wshl_bits by apply wshl_lt.
    destruct (N.ltb_spec (b + N.of_nat (j * U)) 64); [|lia]. cbn [andb].
    rewrite mask_ones. destruct (Nat.eqb_spec j r).
    + subst j. destruct (N.leb_spec (N.of_nat (r * U)) (b + N.of_nat (r * U))); [|lia]. cbn [andb].
      rewrite N.add_sub. rewrite N.ones_spec_low by auto. cbn [negb]. now rewrite andb_false_r.
    + rewrite field_bits. destruct (N.ltb_spec b (N.of_nat U)); [|lia]. cbn [andb].
      destruct (N.leb_spec (N.of_nat (r * U)) (b + N.of_nat (j * U))) as [L|L]; cbn [andb negb].
      * assert (N.of_nat U <= b + N.of_nat (j * U) - N.of_nat (r * U))%N by nia.
        rewrite N.ones_spec_high by auto. rewrite (bits_below x (N.of_nat U)) by auto. cbn [negb]. now rewrite andb_true_r, orb_false_r.
      * now rewrite andb_true_r, orb_false_r.
  - destruct (j =? r); [symmetry; now apply bits_below with (N.of_nat U)|]. rewrite field_bits.
    destruct (N.ltb_spec b (N.of_nat U)); [lia|reflexivity].
Qed.

(** the contents after a history *)
Definition mrep (U : nat) (v : multibit) (cap : nat) (f : nat -> N) : Prop :=
  small (mb_bits v) /\ per U * length (mb_bits v) = cap /\ length (mb_tips v) = kMaxNumTypes U /\
  forall i, i < cap -> elem U (mb_bits v) i = f i.

Lemma elem_lresize : forall U ws n i, okU U -> i < per U * n -> elem U (lresize ws n 0%N) i =
  if i <? per U * length ws then elem U ws i else 0%N.
Proof.
  intros. unfold elem. destruct (per_facts U H) as (A & _).
  rewrite nth_lresize by (apply div_lt_mul; auto).
  destruct (Nat.ltb_spec i (per U * length ws)) as [L|L]; destruct (Nat.ltb_spec (i / per U) (length ws)) as [M|M]; auto.
  - apply (proj2 (div_lt_mul _ _ _ A)) in L. lia.
  - apply (proj1 (div_lt_mul _ _ _ A)) in M. lia.
  - unfold field. rewrite N.shiftr_0_l. apply N.mod_0_l, N.pow_nonzero. lia.
Qed.

Lemma mb_resize_rep : forall U v cap f j, okU U -> mrep U v cap f ->
  mrep U (mb_resize U v j) (per U * (j / per U + 1)) (fun i => if cap <=? i then 0%N else f i).
Proof.
  intros U v cap f j HU (S & L & T & F). unfold mb_resize. rewrite mb_abs_per by auto. unfold mrep. cbn [mb_bits mb_tips].
  split; [now apply small_lresize|]. split; [rewrite lresize_length; lia|]. split; auto.
  intros i Hi. rewrite elem_lresize by auto. rewrite L. destruct (Nat.ltb_spec i cap), (Nat.leb_spec cap i); try lia; auto.
Qed.

Lemma mb_set_rep : forall U v cap f j x, okU U -> mrep U v cap f -> (x < 2 ^ N.of_nat U)%N ->
  exists v', mb_set U v j x = Ok v' /\
    mrep U v' (Nat.max cap (per U * (j / per U + 1))) (fun i => if i =? j then x else if cap <=? i then 0%N else f i).
Proof.
  intros U v cap f j x HU M Hx. destruct (per_facts U HU) as (A & B & _ & _ & _ & F & _).
  assert (exists v1, mb_resize_check U v j = v1 /\ mrep U v1 (Nat.max cap (per U * (j / per U + 1))) (fun i => if cap <=? i then 0%N else f i)) as (v1 & E1 & M1).
  { eexists. split; [reflexivity|]. unfold mb_resize_check. rewrite mb_abs_per by auto. pose proof M as (S & L & T & G).
    destruct (Nat.ltb_spec (j / per U) (length (mb_bits v))).
    - rewrite Nat.max_l by nia. split; auto. split; auto. split; auto. intros i Hi. rewrite G by auto. destruct (Nat.leb_spec cap i); auto. lia.
    - rewrite Nat.max_r by nia. now apply mb_resize_rep. }
  unfold mb_set. rewrite E1. clear E1. destruct M1 as (S & L & T & G). rewrite mb_abs_per, mb_rel_per by auto.
  assert (Hj : j / per U < length (mb_bits v1)) by nia.
  rewrite (lget_nth _ _ _ 0%N) by auto. cbn [bind]. pose proof (mb_rel_bound U j HU).
  rewrite !shl64_Ok by lia. cbn [bind]. rewrite lset_Ok by auto. cbn [bind]. eexists. split; [reflexivity|].
  fold (set_word U (nth (j / per U) (mb_bits v1) 0%N) (j mod per U) x). unfold mrep. cbn [mb_bits mb_tips].
  split; [apply small_upd; auto; apply set_word_lt, small_nth; auto|]. split; [now rewrite upd_length|]. split; auto.
  intros i Hi. unfold elem. rewrite nth_upd. destruct (Nat.ltb_spec (j / per U) (length (mb_bits v1))); [|lia]. rewrite andb_true_r.
  pose proof (mb_rel_bound U i HU).
  destruct (Nat.eqb_spec (i / per U) (j / per U)) as [Ed|Ed].
  - rewrite set_word_field by auto. destruct (Nat.eqb_spec (i mod per U) (j mod per U)) as [Em|Em].
    + assert (i = j) by (rewrite (Nat.div_mod i (per U)), (Nat.div_mod j (per U)) by lia; congruence).
      subst. now rewrite Nat.eqb_refl.
    + destruct (Nat.eqb_spec i j); [congruence|]. rewrite <- Ed. now apply G.
  - destruct (Nat.eqb_spec i j); [congruence|]. now apply G.
Qed.

Lemma mb_run_rep : forall U ops, okU U -> Forall (mb_op_fits U) ops ->
  exists v, mb_run U ops = Ok v /\ mrep U v (mb_capacity (per U) (rev ops)) (mb_last (per U) (rev ops)) /\
    forall i, mb_capacity (per U) (rev ops) <= i -> mb_last (per U) (rev ops) i = 0%N.
Proof.
  intros U ops HU. destruct (per_facts U HU) as (A & _). induction ops as [|o ops IH] using rev_ind; intros F.
  - exists (mb_default U). split; auto. split; [|auto]. split; [constructor|]. split; [simpl; lia|]. split; [apply repeat_length|]. simpl; intros; lia.
  - apply Forall_app in F. destruct F as (F1 & F2). apply Forall_inv in F2. rename F2 into Fo. destruct (IH F1) as (v & E & M & Z). rewrite rev_app_distr. cbn [rev app].
    unfold mb_run in *. destruct o as [j x|j].
    + destruct (mb_set_rep U v _ _ j x HU M Fo) as (v' & E' & M'). exists v'. split.
      * rewrite foldM_app, E. cbn [bind foldM mb_step]. now rewrite E'.
      * split.
        -- destruct M' as (S & L & T & G). split; auto. split; auto. split; auto. intros i Hi. rewrite G by auto. cbn [mb_last].
           destruct (i =? j); auto. destruct (Nat.leb_spec (mb_capacity (per U) (rev ops)) i); auto. symmetry. auto.
        -- intros i Hi. cbn [mb_capacity mb_last] in *. destruct (Nat.eqb_spec i j); [|apply Z; lia]. subst.
           assert (j / per U < j / per U + 1) by lia. apply (proj1 (div_lt_mul _ _ _ A)) in H. lia.
    + pose proof (mb_resize_rep U v _ _ j HU M) as M'. exists (mb_resize U v j). split.
      * rewrite foldM_app, E. cbn [bind foldM mb_step]. reflexivity.
      * split.
        -- destruct M' as (S & L & T & G). split; auto. split; auto. split; auto. intros i Hi. rewrite G by auto. cbn [mb_last mb_capacity] in *.
           destruct (Nat.leb_spec (per U * (j / per U + 1)) i); [lia|].
           destruct (Nat.leb_spec (mb_capacity (per U) (rev ops)) i); auto. symmetry. auto.
        -- intros i Hi. cbn [mb_capacity mb_last] in *. destruct (Nat.leb_spec (per U * (j / per U + 1)) i); [auto|lia].
Qed.

Lemma mb_history : forall U ops, okU U -> Forall (mb_op_fits U) ops ->
  exists v, mb_run U ops = Ok v /\
    forall i, i < mb_capacity (64 / U) (rev ops) -> mb_get U v i = Ok (mb_last (64 / U) (rev ops) i).
Proof.
  intros U ops HU F. destruct (mb_run_rep U ops HU F) as (v & E & (S & L & T & G) & _). exists v. split; auto.
  intros i Hi. rewrite mb_get_elem by (auto; unfold per in *; lia). f_equal. apply G. exact Hi.
Qed.

(** ** rank *)
Definition rc (t : N) (f : nat -> N) (n : nat) : nat := length (filter (fun i => (f i =? t)%N) (seq 0 n)).

Lemma rc_add : forall t f a n, rc t f (a + n) = rc t f a + rc t (fun j => f (a + j)) n.
Proof.
  intros. unfold rc. rewrite seq_app, filter_app, app_length. f_equal. simpl.
  induction n; [reflexivity|]. rewrite !seq_S, !filter_app, !app_length, IHn. simpl. destruct (N.eqb (f (a + n)) t); reflexivity.
Qed.

Lemma rc_ext : forall t f g n, (forall i, i < n -> f i = g i) -> rc t f n = rc t g n.
Proof.
  intros. unfold rc. f_equal. apply filter_ext_in. intros i Hi. apply in_seq in Hi. now rewrite H by lia.
Qed.

Lemma rc_le : forall t f n, rc t f n <= n.
Proof. intros. unfold rc. rewrite <- (seq_length n 0) at 2. generalize (seq 0 n). induction l; simpl; [lia|]. destruct (f a =? t)%N; simpl; lia. Qed.

Lemma field_wnot : forall U x j, okU U -> (x < 2 ^ 64)%N -> j * U + U <= 64 -> field U (wnot x) j = (2 ^ N.of_nat U - 1 - field U x j)%N.
Proof.
  intros U x j HU Hx Hj.
  assert (E : field U (wnot x) j = N.lnot (field U x j) (N.of_nat U)).
  { apply N.bits_inj. intro b. rewrite field_bits. destruct (N.ltb_spec b (N.of_nat U)).
    - rewrite N.lnot_spec_low by auto. rewrite field_bits, wnot_bits by auto.
      destruct (N.ltb_spec b (N.of_nat U)); [|lia]. destruct (N.ltb_spec (b + N.of_nat (j * U)) 64); [reflexivity|lia].
    - rewrite N.lnot_spec_high by auto. rewrite field_bits. destruct (N.ltb_spec b (N.of_nat U)); [lia|reflexivity]. }
  rewrite E. pose proof (field_lt U x j) as L. set (a := field U x j) in *. clearbody a. clear - HU L.
  destruct HU as [->|[->| ->]]; [change (2 ^ N.of_nat 1)%N with 2%N in *|change (2 ^ N.of_nat 2)%N with 4%N in *|change (2 ^ N.of_nat 3)%N with 8%N in *].
  - assert (a = 0 \/ a = 1)%N as [->| ->] by lia; reflexivity.
  - assert (a = 0 \/ a = 1 \/ a = 2 \/ a = 3)%N as [->|[->|[->| ->]]] by lia; reflexivity.
  - assert (a = 0 \/ a = 1 \/ a = 2 \/ a = 3 \/ a = 4 \/ a = 5 \/ a = 6 \/ a = 7)%N as [->|[->|[->|[->|[->|[->|[->| ->]]]]]]] by lia; reflexivity.
Qed.

Lemma fields_rc : forall k n v x, fields_equal k n v x = rc v (field k x) n.
Proof. reflexivity. Qed.

Lemma fields_wnot : forall U x v, okU U -> (x < 2 ^ 64)%N -> (v < 2 ^ N.of_nat U)%N ->
  fields_equal U (per U) (2 ^ N.of_nat U - 1 - v)%N (wnot x) = fields_equal U (per U) v x.
Proof.
  intros U x v HU Hx Hv. unfold fields_equal. f_equal. apply filter_ext_in. intros j Hj. apply in_seq in Hj.
  destruct (per_facts U HU) as (A & B & _ & _ & _ & F & _).
  rewrite field_wnot by (auto; nia). pose proof (field_lt U x j).
  destruct (N.eqb_spec (field U x j) v), (N.eqb_spec (2 ^ N.of_nat U - 1 - field U x j) (2 ^ N.of_nat U - 1 - v)); auto; lia.
Qed.

Lemma fields_ones : forall x n, fields_equal 1 n 1 x = ones_below n x.
Proof.
  intros. unfold fields_equal, ones_below. f_equal. apply filter_ext. intro j.
  assert (E : field 1 x j = N.b2n (N.testbit x (N.of_nat j))).
  { unfold field. rewrite Nat.mul_1_r. change (2 ^ N.of_nat 1)%N with 2%N. rewrite <- N.bit0_mod. f_equal. rewrite N.shiftr_spec'. now rewrite N.add_0_l. }
  rewrite E. destruct (N.testbit x (N.of_nat j)); reflexivity.
Qed.

Lemma wnot_lt : forall x, (x < 2 ^ 64)%N -> (wnot x < 2 ^ 64)%N.
Proof. intros. apply bits_lt. intros i Hi. rewrite wnot_bits by auto. destruct (N.ltb_spec i 64); [lia|reflexivity]. Qed.

Lemma mb_popcnt_spec : forall U t w, okU U -> 1 <= t < 2 ^ U -> (w < 2 ^ 64)%N ->
  mb_popcnt U t w = N.of_nat (rc (N.of_nat t) (field U w) (per U)).
Proof.
  intros U t w HU Ht Hw. rewrite <- fields_rc. pose proof (wnot_lt w Hw) as Hn.
  pose proof HU as HU'. destruct HU' as [E|[E|E]]; subst U; simpl in Ht.
  - assert (t = 1) by lia. subst t. change (mb_popcnt 1 1 w) with (popcnt64 w). rewrite popcnt64_spec by auto.
    change (per 1) with 64. change (N.of_nat 1) with 1%N. now rewrite fields_ones.
  -
    assert (t = 1 \/ t = 2 \/ t = 3) as [->|[->| ->]] by lia.
    + change (mb_popcnt 2 1 w) with (popcnt10 (wnot w)). rewrite popcnt10_spec by auto. apply f_equal, (fields_wnot 2 w 1%N HU Hw). reflexivity.
    + change (mb_popcnt 2 2 w) with (popcnt10 w). now rewrite popcnt10_spec.
    + change (mb_popcnt 2 3 w) with (popcnt11 w). now rewrite popcnt11_spec.
  - assert (t = 1 \/ t = 2 \/ t = 3 \/ t = 4 \/ t = 5 \/ t = 6 \/ t = 7) as [->|[->|[->|[->|[->|[->| ->]]]]]] by lia.
    + change (mb_popcnt 3 1 w) with (popcnt110 (wnot w)). rewrite popcnt110_spec by auto. apply f_equal, (fields_wnot 3 w 1%N HU Hw). reflexivity.
    + change (mb_popcnt 3 2 w) with (popcnt101 (wnot w)). rewrite popcnt101_spec by auto. apply f_equal, (fields_wnot 3 w 2%N HU Hw). reflexivity.
    + change (mb_popcnt 3 3 w) with (popcnt100 (wnot w)). rewrite popcnt100_spec by auto. apply f_equal, (fields_wnot 3 w 3%N HU Hw). reflexivity.
    + change (mb_popcnt 3 4 w) with (popcnt100 w). now rewrite popcnt100_spec.
    + change (mb_popcnt 3 5 w) with (popcnt101 w). now rewrite popcnt101_spec.
    + change (mb_popcnt 3 6 w) with (popcnt110 w). now rewrite popcnt110_spec.
    + change (mb_popcnt 3 7 w) with (popcnt111 w). now rewrite popcnt111_spec.
Qed.

Lemma rc_zero : forall t f n, (forall i, i < n -> f i <> t) -> rc t f n = 0.
Proof.
  intros. unfold rc. rewrite (filter_ext_in _ (fun _ => false)); [induction (seq 0 n); auto|].
  intros i Hi. apply in_seq in Hi. destruct (N.eqb_spec (f i) t); auto. exfalso. apply (H i); auto. lia.
Qed.

Lemma field_masked : forall U w r j, okU U -> field U (N.land w (N.ones (N.of_nat (r * U)))) j = if j <? r then field U w j else 0%N.
Proof.
  intros U w r j HU. destruct (per_facts U HU) as (_ & _ & _ & _ & _ & F & _). apply N.bits_inj. intro b. rewrite field_bits, N.land_spec.
  destruct (Nat.ltb_spec j r).
  - rewrite field_bits. destruct (N.ltb_spec b (N.of_nat U)); cbn [andb]; auto. rewrite N.ones_spec_low by nia. apply andb_true_r.
  - rewrite N.bits_0. destruct (N.ltb_spec b (N.of_nat U)); cbn [andb]; auto. rewrite N.ones_spec_high by nia. apply andb_false_r.
Qed.

Lemma rc_masked : forall U w r t, okU U -> r <= per U -> 1 <= t ->
  rc (N.of_nat t) (field U (N.land w (N.ones (N.of_nat (r * U))))) (per U) = rc (N.of_nat t) (field U w) r.
Proof.
  intros. replace (per U) with (r + (per U - r)) by lia. rewrite rc_add.
  rewrite (rc_zero _ (fun j => field U _ (r + j))).
  - rewrite Nat.add_0_r. apply rc_ext. intros i Hi. rewrite field_masked by auto. destruct (Nat.ltb_spec i r); [auto|lia].
  - intros i Hi. rewrite field_masked by auto. destruct (Nat.ltb_spec (r + i) r); lia.
Qed.

(** counts before a word *)
Section Rank.
Variable (U : nat) (HU : okU U) (ws : list N) (Hs : small ws) (t : nat) (Ht : 1 <= t < 2 ^ U).
Let E := per U.
Let K := kBlocksInTipSize U.
Let n := length ws.
Definition Cw (q : nat) : nat := rc (N.of_nat t) (elem U ws) (per U * Nat.min q (length ws)).

Lemma word_rc : forall q r, r <= per U -> rc (N.of_nat t) (elem U ws) (per U * q + r) =
  rc (N.of_nat t) (elem U ws) (per U * q) + rc (N.of_nat t) (field U (nth q ws 0%N)) r.
Proof.
  intros. rewrite rc_add. f_equal. apply rc_ext. intros j Hj. unfold elem. destruct (per_facts U HU) as (A & _).
  rewrite Nat.mul_comm, Nat.div_add_l by lia. rewrite (Nat.add_comm (q * per U)), Nat.mod_add by lia.
  rewrite Nat.div_small, Nat.mod_small by lia. now rewrite Nat.add_0_r.
Qed.

Lemma Cw_S : forall q, q < length ws -> Cw (S q) = Cw q + rc (N.of_nat t) (field U (nth q ws 0%N)) (per U).
Proof.
  intros. unfold Cw. rewrite !Nat.min_l by lia. rewrite Nat.mul_succ_r. apply word_rc. lia.
Qed.

Lemma Cw_high : forall q, length ws <= q -> Cw (S q) = Cw q.
Proof. intros. unfold Cw. now rewrite !Nat.min_r by lia. Qed.

Lemma Cw_diff : forall q o, Cw q <= Cw (q + o) <= Cw q + o * per U.
Proof.
  intros q. induction o; [rewrite Nat.add_0_r; lia|]. rewrite Nat.add_succ_r. destruct (Nat.lt_ge_cases (q + o) (length ws)).
  - rewrite Cw_S by auto. pose proof (rc_le (N.of_nat t) (field U (nth (q + o) ws 0%N)) (per U)). lia.
  - rewrite Cw_high by auto. lia.
Qed.

Definition L2_at (i m : nat) : list N := map (fun o => N.of_nat (Cw (i * kBlocksInTipSize U + o) - Cw (i * kBlocksInTipSize U))) (seq 0 m).

Lemma tip_fold : forall i m, m <= kBlocksInTipSize U ->
  foldM (mb_tip_step U t ws (N.of_nat (Cw (i * kBlocksInTipSize U))) i) (seq 0 m) ([], N.of_nat (Cw (i * kBlocksInTipSize U))) =
  Ok (L2_at i m, N.of_nat (Cw (i * kBlocksInTipSize U + m))).
Proof.
  intros i. induction m; intros Hm; [now rewrite Nat.add_0_r|]. rewrite seq_S, foldM_app, IHm by lia. cbn [bind foldM]. rewrite Nat.add_0_l.
  unfold mb_tip_step. set (b := i * kBlocksInTipSize U) in *.
  destruct (per_facts U HU) as (A & B & _ & _ & EK & F & G).
  assert (D : ((N.of_nat (Cw (b + m)) - N.of_nat (Cw b)) mod 256 = N.of_nat (Cw (b + m) - Cw b))%N).
  { rewrite <- Nat2N.inj_sub. apply N.mod_small. pose proof (Cw_diff b m). rewrite EK in Hm.
    assert (m * per U <= (4 * U - 1) * per U) by (apply Nat.mul_le_mono_r; lia). lia. }
  rewrite D. assert (L : L2_at i m ++ [N.of_nat (Cw (b + m) - Cw b)] = L2_at i (S m)).
  { unfold L2_at. rewrite seq_S, map_app. reflexivity. }
  rewrite L. rewrite Nat.add_succ_r. destruct (Nat.ltb_spec (b + m) (length ws)).
  - rewrite (lget_nth _ ws _ 0%N) by auto. cbn [bind]. rewrite mb_popcnt_spec by (auto; now apply small_nth).
    rewrite <- Nat2N.inj_add, <- Cw_S by auto. reflexivity.
  - cbn [bind]. now rewrite Cw_high.
Qed.

Definition tips_for (m : nat) : list tip := map (fun i => Tip (N.of_nat (Cw (i * kBlocksInTipSize U))) (L2_at i (kBlocksInTipSize U))) (seq 0 m).

Lemma tips_fold : forall m, foldM (mb_tip U t ws) (seq 0 m) ([], 0%N) = Ok (tips_for m, N.of_nat (Cw (m * kBlocksInTipSize U))).
Proof.
  assert (C0 : Cw 0 = 0) by (unfold Cw; simpl; now rewrite Nat.mul_0_r).
  induction m.
  - simpl. now rewrite C0.
  - rewrite seq_S, foldM_app, IHm. cbn [bind foldM]. rewrite Nat.add_0_l. unfold mb_tip. rewrite tip_fold by lia. cbn [bind fst snd].
    f_equal. f_equal; [|f_equal; f_equal; lia]. unfold tips_for. rewrite seq_S, map_app. reflexivity.
Qed.
End Rank.

Lemma num_types_ok : forall U v, okU U -> exists m, mb_num_types U v = Ok m /\ m <= 2 ^ U /\
  forall i, i < per U * length (mb_bits v) -> N.to_nat (elem U (mb_bits v) i) < m.
Proof.
  intros U v HU. unfold mb_num_types. destruct (per_facts U HU) as (A & B & C & D & EK & F & G).
  replace (length (mb_bits v) * kBitsInType U / U) with (per U * length (mb_bits v)).
  2:{ rewrite C. rewrite Nat.mul_assoc. rewrite Nat.div_mul by lia. lia. }
  assert (H : forall n, n <= per U * length (mb_bits v) -> exists m,
    foldM (fun n i => do x <- mb_get U v i; Ok (Nat.max n (N.to_nat x + 1))) (seq 0 n) 0 = Ok m /\ m <= 2 ^ U /\
    forall i, i < n -> N.to_nat (elem U (mb_bits v) i) < m).
  { induction n; intros Hn.
    - exists 0. simpl. split; auto. split; [lia|]. intros; lia.
    - destruct IHn as (m & E & M & G'); [lia|]. rewrite seq_S, foldM_app, E. cbn [bind foldM]. rewrite Nat.add_0_l.
      rewrite mb_get_elem by (auto; lia). cbn [bind]. eexists. split; [reflexivity|].
      assert (L : N.to_nat (elem U (mb_bits v) n) < 2 ^ U).
      { pose proof (field_lt U (nth (n / per U) (mb_bits v) 0%N) (n mod per U)) as L. fold (elem U (mb_bits v) n) in L.
        apply Nat.compare_lt_iff. rewrite <- (Nat2N.id (2 ^ U)), <- N2Nat.inj_compare. rewrite Nat2N.inj_pow. exact L. }
      split; [lia|]. intros i Hi. destruct (Nat.eq_dec i n); [subst; lia|]. specialize (G' i ltac:(lia)). lia. }
  destruct (H _ (le_n _)) as (m & X & Y & Z). exists m. auto.
Qed.

Lemma types_fold : forall U ws ts all, okU U -> small ws -> length all = 2 ^ U -> forall m, m < 2 ^ U ->
  exists all', foldM (fun all type => do r <- foldM (mb_tip U type ws) (seq 0 ts) ([], 0%N); lset all (type - 1) (fst r)) (seq 1 m) all = Ok all' /\
    length all' = 2 ^ U /\ forall t, 1 <= t <= m -> nth (t - 1) all' [] = tips_for U ws t ts.
Proof.
  intros U ws ts all HU Hs L. induction m; intros Hm.
  - exists all. simpl. split; auto. split; auto. intros; lia.
  - destruct IHm as (a1 & E & L1 & G); [lia|]. rewrite seq_S, foldM_app, E. cbn [bind foldM]. change (1 + m) with (S m).
    rewrite tips_fold by (auto; lia). cbn [bind fst]. rewrite lset_Ok by lia. cbn [bind]. eexists. split; [reflexivity|].
    split; [now rewrite upd_length|]. intros t Ht. rewrite nth_upd. destruct (Nat.ltb_spec (S m - 1) (length a1)); [|lia]. rewrite andb_true_r.
    destruct (Nat.eqb_spec (t - 1) (S m - 1)).
    + f_equal. lia.
    + apply G. lia.
Qed.

Lemma nth_map_seq : forall A (f : nat -> A) n i d, i < n -> nth i (map f (seq 0 n)) d = f i.
Proof. intros. rewrite nth_indep with (d' := f 0) by (rewrite map_length, seq_length; auto). rewrite map_nth. now rewrite seq_nth. Qed.

Lemma ceil_div_lt : forall n k b, 1 <= k -> b * k < n -> b < (n + k - 1) / k.
Proof.
  intros n k b Hk H. pose proof (Nat.div_mod (n + k - 1) k ltac:(lia)) as D. pose proof (Nat.mod_upper_bound (n + k - 1) k ltac:(lia)) as M.
  set (q := (n + k - 1) / k) in *. set (r := (n + k - 1) mod k) in *. clearbody q r. nia.
Qed.

Lemma mb_rank_ok : forall U v, okU U -> small (mb_bits v) -> length (mb_tips v) = kMaxNumTypes U ->
  exists v', mb_build U v = Ok v' /\ mb_bits v' = mb_bits v /\
    forall i, i < per U * length (mb_bits v) -> elem U (mb_bits v) i <> 0%N ->
      mb_rank U v' i = Ok (N.of_nat (rc (elem U (mb_bits v) i) (elem U (mb_bits v)) i)).
Proof.
  intros U v HU Hs HT. destruct (per_facts U HU) as (A & B & C & D & EK & F & G).
  assert (K1 : 1 <= kBlocksInTipSize U) by lia. unfold mb_build.
  destruct (Nat.eqb_spec (length (mb_bits v)) 0) as [Z|Z].
  - exists v. split; auto. split; auto. intros i Hi. nia.
  - destruct (num_types_ok U v HU) as (m & Em & Mm & Gm). rewrite Em. cbn [bind].
    set (ts := (length (mb_bits v) + kBlocksInTipSize U - 1) / kBlocksInTipSize U).
    destruct (types_fold U (mb_bits v) ts (mb_tips v) HU Hs HT (m - 1)) as (all & Ea & La & Ga).
    { assert (2 ^ U <> 0) by (apply Nat.pow_nonzero; lia). lia. }
    rewrite Ea. cbn [bind]. eexists. split; [reflexivity|]. split; [reflexivity|]. intros i Hi Hz.
    set (ty := elem U (mb_bits v) i) in *. unfold mb_rank.
    assert (Et : mb_get U (MB (mb_bits v) all) i = Ok ty) by (apply (mb_get_elem U (MB (mb_bits v) all)); auto).
    rewrite Et. cbn [bind]. destruct (N.eqb_spec ty 0); [congruence|]. pose proof (Gm i Hi) as Bt. fold ty in Bt.
    cbn [mb_tips mb_bits]. assert (Ht : 1 <= N.to_nat ty < 2 ^ U) by lia.
    rewrite (lget_nth _ all _ []) by lia. cbn [bind]. rewrite Ga by lia.
    assert (Hq : i / per U < length (mb_bits v)) by (apply div_lt_mul; auto).
    assert (Eb : mb_block U i = i / per U / kBlocksInTipSize U).
    { unfold mb_block, kBlockCapacity. rewrite C, EK. rewrite Nat.div_div by lia. f_equal. lia. }
    pose proof (Nat.div_mod (i / per U) (kBlocksInTipSize U) ltac:(lia)) as Dq. pose proof (Nat.mod_upper_bound (i / per U) (kBlocksInTipSize U) ltac:(lia)) as Mq.
    pose proof (Nat.div_mod i (per U) ltac:(lia)) as Di. pose proof (Nat.mod_upper_bound i (per U) ltac:(lia)) as Mi.
    rewrite mb_rel_per by auto. rewrite mb_abs_per by auto.
    set (q := i / per U) in *. set (b := q / kBlocksInTipSize U) in *. set (o := q mod kBlocksInTipSize U) in *. set (r := i mod per U) in *.
    assert (Dq' : b * kBlocksInTipSize U + o = q) by (rewrite (Nat.mul_comm b); symmetry; exact Dq).
    assert (Hb : b < ts).
    { apply ceil_div_lt; [exact K1|]. apply Nat.le_lt_trans with q; [rewrite <- Dq'; apply Nat.le_add_r|exact Hq]. }
    clearbody q b o r ts. clear Gm Ea Em La Dq.
    rewrite Eb. unfold tips_for. rewrite (lget_nth _ _ _ (Tip 0 [])) by (rewrite map_length, seq_length; auto). cbn [bind].
    rewrite nth_map_seq by auto. cbn [tip_L1 tip_L2].
    unfold L2_at. rewrite (lget_nth _ _ _ 0%N) by (rewrite map_length, seq_length; auto). cbn [bind].
    rewrite nth_map_seq by auto.
    rewrite Dq'.
    assert (Le : Cw U (mb_bits v) (N.to_nat ty) (b * kBlocksInTipSize U) <= Cw U (mb_bits v) (N.to_nat ty) q).
    { rewrite <- Dq'. apply Cw_diff; auto. }
    rewrite <- Nat2N.inj_add.
    replace (Cw U (mb_bits v) (N.to_nat ty) (b * kBlocksInTipSize U) + (Cw U (mb_bits v) (N.to_nat ty) q - Cw U (mb_bits v) (N.to_nat ty) (b * kBlocksInTipSize U)))
      with (Cw U (mb_bits v) (N.to_nat ty) q) by (symmetry; rewrite Nat.add_comm; now apply Nat.sub_add).
    assert (EC : Cw U (mb_bits v) (N.to_nat ty) q = rc ty (elem U (mb_bits v)) (per U * q)).
    { unfold Cw. rewrite N2Nat.id. now rewrite Nat.min_l by lia. }
    assert (ER : rc ty (elem U (mb_bits v)) i = rc ty (elem U (mb_bits v)) (per U * q) + rc ty (field U (nth q (mb_bits v) 0%N)) r).
    { rewrite Di at 1. pose proof (word_rc U HU (mb_bits v) (N.to_nat ty) Ht q r ltac:(lia)) as W. now rewrite N2Nat.id in W. }
    rewrite ER, EC. destruct (Nat.eqb_spec (r * U) 0).
    + replace r with 0 by nia. f_equal. f_equal. unfold rc at 3. simpl. lia.
    + rewrite (lget_nth _ _ _ 0%N) by auto. cbn [bind]. assert (r * U < per U * U) by (apply Nat.mul_lt_mono_pos_r; lia). rewrite WidthMask_ones by (clear - H B; lia).
      cbn [bind]. rewrite mb_popcnt_spec; auto.
      * rewrite N2Nat.id. rewrite <- Nat2N.inj_add. f_equal. f_equal. f_equal.
        pose proof (rc_masked U (nth q (mb_bits v) 0%N) r (N.to_nat ty) HU ltac:(lia) ltac:(lia)) as W. rewrite N2Nat.id in W. exact W.
      * apply land_small. now apply small_nth.
Qed.

Lemma mb_history_rank : forall U ops, okU U -> Forall (mb_op_fits U) ops ->
  exists v v', mb_run U ops = Ok v /\ mb_build U v = Ok v' /\
    (forall i, i < mb_capacity (64 / U) (rev ops) -> mb_get U v' i = Ok (mb_last (64 / U) (rev ops) i)) /\
    forall i, i < mb_capacity (64 / U) (rev ops) -> mb_last (64 / U) (rev ops) i <> 0%N ->
      mb_rank U v' i = Ok (N.of_nat (count_if (fun j => (mb_last (64 / U) (rev ops) j =? mb_last (64 / U) (rev ops) i)%N) (seq 0 i))).
Proof.
  intros U ops HU F. destruct (mb_run_rep U ops HU F) as (v & E & (S & L & T & G) & _). destruct (mb_rank_ok U v HU S T) as (v' & Eb & Ebits & R).
  change (64 / U) with (per U). exists v, v'. split; auto. split; auto. split.
  - intros i Hi. rewrite mb_get_elem by (auto; rewrite Ebits; lia). rewrite Ebits. f_equal. auto.
  - intros i Hi Hz. rewrite R by (rewrite ?L, ?G; auto). rewrite G by auto. f_equal. f_equal.
    change (count_if ?p ?l) with (length (filter p l)). fold (rc (mb_last (per U) (rev ops) i) (mb_last (per U) (rev ops)) i).
    apply rc_ext. intros j Hj. apply G. lia.
Qed.
