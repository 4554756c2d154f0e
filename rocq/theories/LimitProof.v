(** Proofs about LimitModel.v *)
From Coq Require Import List NArith ZArith Arith Bool Lia.
From Verif Require Import Base Spec Spec26 BitUtilModel CalcModel CalcProof CalcExact BitVectorModel SuccinctModel FitVectorModel WaveletModel DacModel MultiBitModel SignedModel LimitModel MultiBitProof MultipleProof2.
Import ListNotations.
Local Open Scope nat_scope.

(** loops counted by an int *)
Definition counted {A S} (f : S -> A -> res S) (st : S * Z) (v : A) : res (S * Z) :=
  do s <- f (fst st) v; do i <- int_inc (snd st); Ok (s, i).
Definition plain {A} (r : res A) : Prop := r <> Throw /\ r <> Fuel.

Lemma counted_short : forall A S (f : S -> A -> res S) l s z, (0 <= z)%Z -> (z + Z.of_nat (length l) < 2 ^ 31)%Z ->
  foldM (counted f) l (s, z) = do s' <- foldM f l s; Ok (s', z + Z.of_nat (length l))%Z.
Proof.
  intros A S f. induction l as [|a l IH]; intros s z Hz Hl.
  - cbn [foldM bind length Z.of_nat]. do 2 f_equal. lia.
  - cbn [foldM length] in *. unfold counted at 1. cbn [fst snd]. destruct (f s a) as [s'| | |]; cbn [bind]; auto.
    unfold int_inc. destruct (Z.eqb_spec z (2 ^ 31 - 1)); [lia|]. cbn [bind]. rewrite IH by lia.
    destruct (foldM f l s'); cbn [bind]; auto. do 2 f_equal. lia.
Qed.
Lemma counted_long : forall A S (f : S -> A -> res S), (forall s a, plain (f s a)) -> forall l s z, (0 <= z <= 2 ^ 31 - 1)%Z -> (2 ^ 31 <= z + Z.of_nat (length l))%Z ->
  foldM (counted f) l (s, z) = UB.
Proof.
  intros A S f P. induction l as [|a l IH]; intros s z Hz Hl.
  - cbn [length Z.of_nat] in Hl. lia.
  - cbn [foldM length] in *. unfold counted at 1. cbn [fst snd]. destruct (P s a) as (P1 & P2). destruct (f s a) as [s'| | |]; cbn [bind]; try congruence.
    unfold int_inc. destruct (Z.eqb_spec z (2 ^ 31 - 1)); cbn [bind]; auto. apply IH; lia.
Qed.

Lemma plain_bind : forall A B (m : res A) (f : A -> res B), plain m -> (forall a, plain (f a)) -> plain (bind m f).
Proof. intros A B m f (P1 & P2) F. destruct m; cbn [bind]; try congruence; [apply F|split; congruence]. Qed.
Lemma plain_Ok : forall A (a : A), plain (Ok a).
Proof. split; congruence. Qed.
Lemma plain_UB : forall A, plain (@UB A).
Proof. split; congruence. Qed.
Lemma plain_lget : forall A (l : list A) i, plain (lget l i).
Proof. intros. unfold lget. destruct (nth_error l i); split; congruence. Qed.
Lemma plain_lset : forall A (l : list A) i v, plain (lset l i v).
Proof. intros. unfold lset. destruct (i <? length l); split; congruence. Qed.
Lemma plain_foldM : forall A S (f : S -> A -> res S), (forall s a, plain (f s a)) -> forall l s, plain (foldM f l s).
Proof. intros A S f F. induction l; intros s; cbn [foldM]; [apply plain_Ok|]. apply plain_bind; auto. Qed.
Ltac plains := repeat first [apply plain_Ok | apply plain_UB | apply plain_lget | apply plain_lset | apply plain_bind; [|intro] | apply plain_foldM; intros
  | match goal with |- plain (if ?b then _ else _) => destruct b end].
Lemma plain_shl : forall x k, plain (shl64 x k).
Proof. intros. unfold shl64. plains. Qed.
Lemma plain_shr : forall x k, plain (shr64 x k).
Proof. intros. unfold shr64. plains. Qed.
Lemma plain_push : forall v b, plain (bv_push_back v b).
Proof. intros. unfold bv_push_back, bv_resize, fill, fill_inner, wgetZ, wsetZ. plains; try apply plain_shl; try apply plain_shr. Qed.
Lemma plain_insert : forall k nodes id v, plain (wt_insert k nodes id v).
Proof. induction k; intros; cbn [wt_insert]; plains; [apply plain_push|apply IHk]. Qed.
Lemma plain_insert_signed : forall k nodes id v, plain (wt_insert_signed k nodes id v).
Proof. induction k; intros; cbn [wt_insert_signed]; plains; [apply plain_push|apply IHk]. Qed.
Lemma wavelet_limit : forall l, wt_make_int l = if (N.of_nat (length l) <? 2 ^ 31)%N then wt_make l else UB.
Proof.
  intros l. destruct l as [|x l]; [reflexivity|]. unfold wt_make_int, wt_make. set (y := x :: l) in *. clearbody y. cbv zeta.
  rewrite bits_total. destruct (max_element y <? 2 ^ 63)%N; cbn [bind]; [|destruct (_ <? _)%N; reflexivity].
  set (h := bits_needed (max_element y)). destruct (32 <=? h); [destruct (_ <? _)%N; reflexivity|].
  change (wt_element h) with (counted (fun nodes v => wt_insert h nodes 1 v)). destruct (N.ltb_spec (N.of_nat (length y)) (2 ^ 31)) as [H|H].
  - rewrite counted_short by lia. destruct (foldM _ y (repeat bv_default (2 ^ h - 1))); reflexivity.
  - rewrite counted_long; [reflexivity|intros; apply plain_insert|lia|lia].
Qed.
Lemma wavelet_limit_signed : forall l, wt_make_signed_int l = if (N.of_nat (length l) <? 2 ^ 31)%N then wt_make_signed l else UB.
Proof.
  intros l. destruct l as [|x l]; [reflexivity|]. unfold wt_make_signed_int, wt_make_signed. cbv zeta.
  set (m := to_word (max_element_signed x l)). clearbody m. set (y := x :: l). clearbody y.
  rewrite bits_total. destruct (m <? 2 ^ 63)%N; cbn [bind]; [|destruct (_ <? _)%N; reflexivity].
  set (h := bits_needed m). destruct (32 <=? h); [destruct (_ <? _)%N; reflexivity|].
  change (wt_element_signed h) with (counted (fun nodes v => wt_insert_signed h nodes 1 v)). destruct (N.ltb_spec (N.of_nat (length y)) (2 ^ 31)) as [H|H].
  - rewrite counted_short by lia. destruct (foldM _ y (repeat bv_default (2 ^ h - 1))); reflexivity.
  - rewrite counted_long; [reflexivity|intros; apply plain_insert_signed|lia|lia].
Qed.

(** counts kept in an int *)
Lemma to_int_word : forall a, to_word (to_int a) = through_int a.
Proof.
  intros a. unfold to_word, to_int, through_int. cbv zeta. pose proof (N.mod_upper_bound a (2 ^ 32) ltac:(discriminate)) as B.
  assert (E : (Z.of_N a mod 2 ^ 32 = Z.of_N (a mod 2 ^ 32))%Z) by (rewrite N2Z.inj_mod; reflexivity). rewrite E. clear E. set (r := (a mod 2 ^ 32)%N) in *. clearbody r.
  change (2 ^ 32)%N with 4294967296%N in *. change (2 ^ 31)%N with 2147483648%N. change (2 ^ 64)%N with 18446744073709551616%N.
  change (2 ^ 32)%Z with 4294967296%Z. change (2 ^ 31)%Z with 2147483648%Z. change (2 ^ 64)%Z with 18446744073709551616%Z.
  destruct (Z.ltb_spec (Z.of_N r) 2147483648), (N.ltb_spec r 2147483648); try lia.
Qed.
Lemma to_int_add : forall a c, to_int (wrap64 (to_word (to_int a) + c)) = to_int (a + c).
Proof.
  intros a c. unfold to_int at 1 3. cbv zeta.
  assert (E : (Z.of_N (wrap64 (to_word (to_int a) + c)) mod 2 ^ 32 = Z.of_N (a + c) mod 2 ^ 32)%Z); [|now rewrite E].
  rewrite to_int_word. unfold wrap64, through_int.
  assert (D : forall x, (Z.of_N (x mod 2 ^ 64) mod 2 ^ 32 = Z.of_N x mod 2 ^ 32)%Z).
  { intros x. rewrite N2Z.inj_mod. change (Z.of_N (2 ^ 64)) with (2 ^ 32 * 2 ^ 32)%Z. rewrite Z.rem_mul_r by lia. rewrite Z.add_mod by lia.
    rewrite (Z.mul_comm (2 ^ 32)), Z.mod_mul, Z.add_0_r, !Z.mod_mod by lia. reflexivity. }
  rewrite D. rewrite !N2Z.inj_add. rewrite Z.add_mod by lia. rewrite (Z.add_mod (Z.of_N a)) by lia. f_equal. f_equal.
  assert (G : (Z.of_N (a mod 2 ^ 32) mod 2 ^ 32 = Z.of_N a mod 2 ^ 32)%Z) by (rewrite N2Z.inj_mod; change (Z.of_N (2 ^ 32)) with (2 ^ 32)%Z; apply Z.mod_mod; lia).
  destruct (_ <? _)%N; auto. rewrite N2Z.inj_add. change (Z.of_N (2 ^ 64 - 2 ^ 32)) with ((2 ^ 32 - 1) * 2 ^ 32)%Z. rewrite Z.add_comm, Z.mod_add by lia. auto.
Qed.

Definition seen (c : nat) : N := through_int (N.of_nat c).
Lemma map_upd : forall A B (g : A -> B) l i x, map g (upd l i x) = upd (map g l) i (g x).
Proof. induction l; intros; destruct i; cbn [upd map]; auto. now rewrite IHl. Qed.
Lemma cfl_lockstep : forall h is cf count,
  foldM (cfl_step_int h) is (map seen cf, to_int (N.of_nat count)) =
  do st <- foldM (cfl_step h) is (cf, count); Ok (map seen (fst st), to_int (N.of_nat (snd st))).
Proof.
  intros h. induction is as [|i is IH]; intros cf count; [reflexivity|]. cbn [foldM]. unfold cfl_step_int at 1, cfl_step at 1.
  destruct (lget h (i - 1)) as [c| | |]; cbn [bind]; auto. cbv zeta. rewrite to_int_add. rewrite <- Nat2N.inj_add. rewrite to_int_word.
  unfold lset. rewrite map_length. destruct (i - 1 <? length cf); cbn [bind]; auto. change (through_int (N.of_nat (count + c))) with (seen (count + c)).
  rewrite <- map_upd. apply IH.
Qed.
Lemma cfl_int : forall l, cummulative_frequency_list_int l = do cf <- cummulative_frequency_list l; Ok (map seen cf).
Proof.
  intros l. unfold cummulative_frequency_list_int, cummulative_frequency_list. destruct (bit_length_frequencies l) as [h| | |]; cbn [bind]; auto.
  replace (repeat 0%N (length h)) with (map seen (repeat 0 (length h))).
  2:{ generalize (length h). induction n; cbn [repeat map]; auto. rewrite IHn. reflexivity. }
  change 0%Z with (to_int (N.of_nat 0)). rewrite cfl_lockstep. destruct (foldM _ _ _) as [st| | |]; reflexivity.
Qed.
Lemma cumulative_int : forall l, Forall (fun v => (v < 2 ^ 63)%N) l -> exists cf, cummulative_frequency_list_int l = Ok cf /\ length cf = max_bits l /\
  forall k, k < max_bits l -> nth k cf 0%N = through_int (N.of_nat (longer_than k l)).
Proof.
  intros l F. destruct (cummulative_frequency_list_spec l F) as (cf & E & L & H). exists (map seen cf). rewrite cfl_int, E. split; [reflexivity|]. split; [now rewrite map_length|].
  intros k Hk. rewrite (nth_indep _ 0%N (seen 0)) by (rewrite map_length; lia). rewrite map_nth. unfold seen. now rewrite H.
Qed.
Lemma through_small : forall c, (c < 2 ^ 63)%N -> (through_int c = c <-> (c < 2 ^ 31)%N).
Proof.
  intros c H. unfold through_int. pose proof (N.mod_upper_bound c (2 ^ 32) ltac:(discriminate)). pose proof (N.mod_le c (2 ^ 32) ltac:(discriminate)).
  split; intros E.
  - destruct (N.ltb_spec (c mod 2 ^ 32) (2 ^ 31)); [lia|]. change (2 ^ 63)%N with 9223372036854775808%N in *. change (2 ^ 64)%N with 18446744073709551616%N in *. change (2 ^ 32)%N with 4294967296%N in *. lia.
  - rewrite N.mod_small by (apply N.lt_trans with (2 ^ 31)%N; [auto|reflexivity]). destruct (N.ltb_spec c (2 ^ 31)); lia.
Qed.

(** DacVector *)
Lemma word_lt57 : forall n, (n < 2 ^ 57)%N -> reserve_words n = Ok tt.
Proof. intros. unfold reserve_words. destruct (N.leb_spec (2 ^ 57) n); [lia|reflexivity]. Qed.
Lemma word_ge57 : forall n, (2 ^ 57 <= n)%N -> reserve_words n = Throw.
Proof. intros. unfold reserve_words. destruct (N.leb_spec (2 ^ 57) n); [reflexivity|lia]. Qed.
Lemma fv_reserve_small : forall u c, 1 <= u <= 63 -> (c < 2 ^ 31)%N -> fv_reserve u c = Ok tt.
Proof.
  intros u c U C. unfold fv_reserve. apply word_lt57. destruct (N.eqb_spec c 0); [reflexivity|].
  assert (H : (1 <= c * N.of_nat u < 2 ^ 38)%N) by (change (2 ^ 31)%N with 2147483648%N in C; change (2 ^ 38)%N with 274877906944%N; nia).
  set (x := (c * N.of_nat u)%N) in *. clearbody x. unfold wrap64. rewrite N.mod_small by (apply N.lt_trans with (2 ^ 38)%N; [apply H|reflexivity]).
  assert (E : wsub x 1 = (x - 1)%N).
  { unfold wsub. change (2 ^ 38)%N with 274877906944%N in H. change (2 ^ 64)%N with 18446744073709551616%N in *. rewrite <- (N.mod_unique _ 18446744073709551616%N 1%N (x - 1)); lia. }
  rewrite E. change (2 ^ 38)%N with 274877906944%N in H. change (2 ^ 57)%N with 144115188075855872%N. assert (D : ((x - 1) / 64 <= x - 1)%N) by (apply N.div_le_upper_bound; lia). lia.
Qed.
Lemma bv_reserve_small : forall c, (c < 2 ^ 31)%N -> bv_reserve c = Ok tt.
Proof.
  intros c C. unfold bv_reserve. apply word_lt57. destruct (N.eqb_spec c 0); [reflexivity|]. assert (D : ((c - 1) / 64 <= c - 1)%N) by (apply N.div_le_upper_bound; lia).
  change (2 ^ 31)%N with 2147483648%N in C. change (2 ^ 57)%N with 144115188075855872%N. lia.
Qed.
Lemma fv_reserve_negative : forall u c, 1 <= u <= 63 -> (2 ^ 64 - 2 ^ 31 <= c < 2 ^ 64)%N -> fv_reserve u c = Throw.
Proof.
  intros u c U C. unfold fv_reserve. apply word_ge57. change (2 ^ 31)%N with 2147483648%N in C. change (2 ^ 64)%N with 18446744073709551616%N in C. change (2 ^ 57)%N with 144115188075855872%N.
  destruct (N.eqb_spec c 0); [lia|]. set (x := (18446744073709551616 - c)%N). assert (X : (1 <= x <= 2147483648)%N) by lia. replace c with (18446744073709551616 - x)%N by lia.
  clearbody x. clear C n c. set (y := (x * N.of_nat u)%N). assert (Y : (1 <= y <= 2147483648 * 63)%N) by (unfold y; nia).
  assert (W : wrap64 ((18446744073709551616 - x) * N.of_nat u) = (18446744073709551616 - y)%N).
  { unfold wrap64. change (2 ^ 64)%N with 18446744073709551616%N. symmetry. apply (N.mod_unique _ _ (N.of_nat u - 1)); [lia|]. unfold y in *. nia. }
  rewrite W. clearbody y. clear - Y.
  assert (E : wsub (18446744073709551616 - y) 1 = (18446744073709551616 - y - 1)%N).
  { unfold wsub. change (2 ^ 64)%N with 18446744073709551616%N. symmetry. apply (N.mod_unique _ _ 1); lia. }
  rewrite E. assert (D : (144115188075855872 <= (18446744073709551616 - y - 1) / 64)%N) by (apply N.div_le_lower_bound; lia). lia.
Qed.

Definition neg (c : nat) : bool := (2 ^ 31 <=? N.of_nat c mod 2 ^ 32)%N.
Lemma seen_neg : forall c, (if neg c then (2 ^ 64 - 2 ^ 31 <= seen c < 2 ^ 64) else (seen c < 2 ^ 31))%N.
Proof.
  intros c. unfold neg, seen, through_int. pose proof (N.mod_upper_bound (N.of_nat c) (2 ^ 32) ltac:(discriminate)) as B. set (r := (N.of_nat c mod 2 ^ 32)%N) in *. clearbody r.
  change (2 ^ 31)%N with 2147483648%N. change (2 ^ 64)%N with 18446744073709551616%N. change (2 ^ 32)%N with 4294967296%N in *.
  destruct (N.leb_spec 2147483648 r), (N.ltb_spec r 2147483648); lia.
Qed.
Lemma reserve_int : forall units cf t, Forall (fun u => 1 <= u <= 63) units ->
  dac_reserve_int (map seen cf) units t =
  if existsb (fun i => (t + list_sum_nat (firstn i units) <? length cf) && neg (nth (t + list_sum_nat (firstn i units)) cf 0)) (seq 0 (length units)) then Throw else dac_reserve cf units t.
Proof.
  induction units as [|u us IH]; intros cf t F; [reflexivity|]. inversion F as [|? ? Hu Fu]; subst. cbn [dac_reserve_int dac_reserve length seq existsb firstn list_sum_nat fold_right].
  rewrite Nat.add_0_r. rewrite <- seq_shift.
  assert (EX : existsb (fun i => (t + list_sum_nat (firstn i (u :: us)) <? length cf) && neg (nth (t + list_sum_nat (firstn i (u :: us))) cf 0)) (map S (seq 0 (length us))) =
    existsb (fun i => (t + u + list_sum_nat (firstn i us) <? length cf) && neg (nth (t + u + list_sum_nat (firstn i us)) cf 0)) (seq 0 (length us))).
  { clear. generalize (seq 0 (length us)) as l. induction l as [|a l IHl]; cbn [map existsb]; auto. rewrite IHl. change (list_sum_nat (firstn (S a) (u :: us))) with (u + list_sum_nat (firstn a us)). now rewrite Nat.add_assoc. }
  rewrite EX. clear EX. specialize (IH cf (t + u) Fu).
  unfold lget. rewrite nth_error_map. destruct (Nat.ltb_spec t (length cf)) as [T|T].
  - rewrite (nth_error_nth' cf 0) by auto. cbn [option_map bind andb]. pose proof (seen_neg (nth t cf 0)) as N. destruct (neg (nth t cf 0)).
    + rewrite fv_reserve_negative by auto. reflexivity.
    + rewrite fv_reserve_small by auto. cbn [bind orb].
      assert (P : (match us with [] => Ok tt | _ => bv_reserve (seen (nth t cf 0)) end) = Ok tt) by (destruct us; auto; now apply bv_reserve_small).
      rewrite P. cbn [bind]. rewrite IH. destruct (Nat.eqb_spec u 0); [lia|]. reflexivity.
  - rewrite (proj2 (nth_error_None cf t)) by auto. cbn [option_map bind andb orb].
    assert (Z : existsb (fun i => (t + u + list_sum_nat (firstn i us) <? length cf) && neg (nth (t + u + list_sum_nat (firstn i us)) cf 0)) (seq 0 (length us)) = false).
    { apply not_true_is_false. intros X. apply existsb_exists in X. destruct X as (i & _ & X). apply andb_prop in X. destruct X as (X & _). apply Nat.ltb_lt in X. lia. }
    now rewrite Z.
Qed.

Lemma longer_beyond : forall l t, max_bits l <= t -> longer_than t l = 0.
Proof.
  intros l t H. unfold longer_than. apply count_if_false. intros x I. pose proof (max_bits_In l x I). apply Nat.ltb_ge. lia.
Qed.
Lemma dac_limit : forall l widths, l <> [] -> widths <> [] -> Forall (fun v => (v < 2 ^ 63)%N) l -> Forall (fun u => 1 <= u <= 63) widths ->
  (negative_level widths l -> dac_of_widths_int l widths = Throw) /\ (~ negative_level widths l -> dac_of_widths_int l widths = dac_of_list l widths).
Proof.
  intros l widths Hl Hw F FW. destruct (cummulative_frequency_list_spec l F) as (cf & E & L & C).
  assert (R : dac_of_widths_int l widths = do _ <- dac_reserve_int (map seen cf) widths 0;
      do st <- foldM (dac_push widths) l (map fv_make widths, repeat bv_default (length widths - 1));
      do paths <- mapM (sb_build false) (snd st); Ok (Dac (Some (length widths)) widths (fst st) paths)).
  { unfold dac_of_widths_int. destruct l; [congruence|]. unfold dac_build_int. destruct widths as [|w ws]; [congruence|]. rewrite cfl_int, E. cbn [bind length]. replace (S (length ws) - 1) with (length ws) by lia. reflexivity. }
  assert (R' : dac_of_list l widths = do _ <- dac_reserve cf widths 0;
      do st <- foldM (dac_push widths) l (map fv_make widths, repeat bv_default (length widths - 1));
      do paths <- mapM (sb_build false) (snd st); Ok (Dac (Some (length widths)) widths (fst st) paths)).
  { unfold dac_of_list, dac_of_list_gen, dac_build. destruct l; [congruence|]. destruct widths as [|w ws]; [congruence|]. cbn [bind]. rewrite E. cbn [bind length]. replace (S (length ws) - 1) with (length ws) by lia. reflexivity. }
  rewrite R, R'. rewrite reserve_int by auto.
  set (x := existsb _ _). assert (X : x = true <-> negative_level widths l).
  { unfold x. rewrite existsb_exists. unfold negative_level. split.
    - intros (i & I & H). apply in_seq in I. exists i. split; [lia|]. apply andb_prop in H. destruct H as (H1 & H2). cbn [Nat.add] in *. apply Nat.ltb_lt in H1. unfold neg in H2. rewrite C in H2 by lia.
      now apply N.leb_le.
    - intros (i & I & H). exists i. split; [apply in_seq; lia|]. cbn [Nat.add]. destruct (Nat.lt_ge_cases (list_sum_nat (firstn i widths)) (max_bits l)) as [B|B].
      + rewrite (proj2 (Nat.ltb_lt _ _)) by lia. unfold neg. rewrite C by auto. now apply N.leb_le.
      + exfalso. rewrite longer_beyond in H by auto. change (2 ^ 31 <= 0)%N in H. lia. }
  destruct x; split; intros H; try reflexivity.
  - exfalso. apply H. now apply X.
  - apply X in H. discriminate.
Qed.
Lemma count_if_le : forall A (f : A -> bool) l, count_if f l <= length l.
Proof. intros. unfold count_if. induction l; cbn [filter length]; auto. destruct (f a); cbn [length]; lia. Qed.
Lemma dac_limit_few : forall l widths, (N.of_nat (length l) < 2 ^ 31)%N -> ~ negative_level widths l.
Proof.
  intros l widths H (i & _ & G). unfold longer_than in G. match type of G with context [count_if ?f ?x] => pose proof (count_if_le _ f x) as LE; set (c := count_if f x) in * end. clearbody c.
  rewrite N.mod_small in G; [lia|]. apply N.lt_trans with (2 ^ 31)%N; [lia|reflexivity].
Qed.
Lemma dac_limit_many : forall l widths, widths <> [] -> (2 ^ 31 <= N.of_nat (length l) < 2 ^ 32)%N -> negative_level widths l.
Proof.
  intros l widths W H. exists 0. split; [destruct widths; [congruence|cbn [length]; lia]|]. cbn [firstn list_sum_nat fold_right].
  assert (E : longer_than 0 l = length l).
  { unfold longer_than, count_if. clear. induction l as [|a l IH]; cbn [filter length]; auto. pose proof (proj1 (bits_needed_spec a)). destruct (Nat.ltb_spec 0 (bits_needed a)); [|lia]. cbn [length]. now rewrite IH. }
  rewrite E. rewrite N.mod_small; lia.
Qed.

(** the number of tips through double *)
Lemma double_exact : forall n b, (1 <= n < 2 ^ 53)%N -> (1 <= b < 2 ^ 53)%N -> double_ceil n b = ((n + b - 1) / b)%N.
Proof.
  intros n b Hn Hb. unfold double_ceil, double_quotient. cbv zeta. set (s := (112 - N.log2 (n * 2 ^ 60 / b))%N).
  assert (P : (b < 2 * 2 ^ s)%N).
  { assert (Q : (0 < n * 2 ^ 60 / b)%N).
    { apply N.div_str_pos. split; [lia|]. apply N.le_trans with (1 * 2 ^ 60)%N; [|apply N.mul_le_mono_r; lia]. apply N.le_trans with (2 ^ 53)%N; [lia|discriminate]. }
    pose proof (N.log2_spec _ Q) as (L & _). set (k := N.log2 (n * 2 ^ 60 / b)) in *.
    assert (D : (n * 2 ^ 60 / b < 2 ^ 113)%N).
    { apply N.le_lt_trans with (n * 2 ^ 60)%N; [apply N.div_le_upper_bound; [lia|]; nia|]. change (2 ^ 113)%N with (2 ^ 53 * 2 ^ 60)%N. apply N.mul_lt_mono_pos_r; [reflexivity|apply Hn]. }
    assert (K : (k <= 112)%N) by (apply N.lt_succ_r; apply N.log2_lt_pow2; auto).
    assert (E : (2 ^ k * 2 ^ s = 2 ^ 112)%N) by (rewrite <- N.pow_add_r; f_equal; unfold s; lia).
    assert (G : (b * 2 ^ k < 2 * 2 ^ 112)%N).
    { apply N.le_lt_trans with (n * 2 ^ 60)%N.
      - apply N.le_trans with (b * (n * 2 ^ 60 / b))%N; [now apply N.mul_le_mono_l|apply N.mul_div_le; lia].
      - change (2 * 2 ^ 112)%N with (2 ^ 53 * 2 ^ 60)%N. apply N.mul_lt_mono_pos_r; [reflexivity|apply Hn]. }
    rewrite <- E in G. assert (0 < 2 ^ k)%N by (apply N.neq_0_lt_0, N.pow_nonzero; discriminate). clearbody s k. set (x := (2 ^ k)%N) in *. set (y := (2 ^ s)%N) in *. clearbody x y. nia. }
  assert (P1 : (0 < 2 ^ s)%N) by (apply N.neq_0_lt_0, N.pow_nonzero; discriminate).
  set (p := (2 ^ s)%N) in *. clearbody p. clear s. assert (Hb0 : (1 <= b)%N) by lia. assert (Hn0 : (1 <= n)%N) by lia. clear Hb Hn.
  set (m := (if ((2 * (n * p) + b) mod (2 * b) =? 0)%N && N.odd ((2 * (n * p) + b) / (2 * b)) then (2 * (n * p) + b) / (2 * b) - 1 else (2 * (n * p) + b) / (2 * b))%N).
  assert (M : (2 * (n * p) <= 2 * b * m + b /\ 2 * b * m <= 2 * (n * p) + b)%N).
  { unfold m. pose proof (N.div_mod (2 * (n * p) + b) (2 * b) ltac:(lia)) as D. pose proof (N.mod_upper_bound (2 * (n * p) + b) (2 * b) ltac:(lia)) as U.
    set (q := ((2 * (n * p) + b) / (2 * b))%N) in *. set (r := ((2 * (n * p) + b) mod (2 * b))%N) in *. clearbody q r. set (x := (n * p)%N) in *. clearbody x.
    destruct (N.eqb_spec r 0); cbn [andb]; [|nia]. destruct (N.odd q) eqn:O; [|nia]. assert (q <> 0)%N by (intros ->; discriminate).
    replace (2 * b * (q - 1))%N with (2 * b * q - 2 * b)%N by nia. nia. }
  clearbody m. pose proof (N.div_mod (n + b - 1) b ltac:(lia)) as D. pose proof (N.mod_upper_bound (n + b - 1) b ltac:(lia)) as U.
  set (c := ((n + b - 1) / b)%N) in *. set (r := ((n + b - 1) mod b)%N) in *. clearbody c r.
  destruct M as (M1 & M2).
  assert (Lo : (c * p < m + p)%N).
  { apply N.nle_gt. intros H. assert (2 * b * (m + p) <= 2 * b * (c * p))%N by (apply N.mul_le_mono_l; auto). 
    assert (b * c * p <= (n + b - 1) * p)%N by (apply N.mul_le_mono_r; lia). nia. }
  assert (Hi : (m <= c * p)%N).
  { apply N.nlt_ge. intros H. assert (2 * b * (c * p + 1) <= 2 * b * m)%N by (apply N.mul_le_mono_l; lia). assert (n * p <= b * c * p)%N by (apply N.mul_le_mono_r; lia). nia. }
  symmetry. apply (N.div_unique _ _ _ (m + (p - 1) - c * p)); lia.
Qed.

(** MultiBitVector::build *)
Lemma plain_tip_step : forall U type ws L1 i st o, plain (mb_tip_step_int U type ws L1 i st o).
Proof. intros. unfold mb_tip_step_int. destruct st. cbv zeta. plains. Qed.
Lemma plain_tip : forall U type ws st i, plain (mb_tip_int U type ws st i).
Proof. intros. unfold mb_tip_int. destruct st. plains. apply plain_tip_step. Qed.
Lemma plain_cases : forall A (r : res A), plain r -> (exists a, r = Ok a) \/ r = UB.
Proof. intros A r (P1 & P2). destruct r; try congruence; [left; eauto|right; auto]. Qed.

Lemma tip_within : forall U type ws st i, okU U -> (N.of_nat ((i + 1) * kBlocksInTipSize U) <= 2 ^ 31)%N -> mb_tip_int U type ws st i = mb_tip U type ws st i.
Proof.
  intros U type ws st i HU H. unfold mb_tip_int, mb_tip. destruct st as [tips count]. erewrite foldM_ext2; [reflexivity|]. intros s o I. apply in_seq in I.
  unfold mb_tip_step_int, mb_tip_step. destruct s. cbv zeta. destruct (N.leb_spec (2 ^ 31) (N.of_nat (i * kBlocksInTipSize U + o))); [|reflexivity]. nia.
Qed.
Lemma tip_outside : forall U type ws st i, okU U -> (2 ^ 31 < N.of_nat ((i + 1) * kBlocksInTipSize U))%N -> mb_tip_int U type ws st i = UB.
Proof.
  intros U type ws st i HU H. unfold mb_tip_int. destruct st as [tips count]. destruct (per_facts U HU) as (_ & _ & _ & _ & K & B & _).
  rewrite (foldM_UB _ _ _ _ (kBlocksInTipSize U - 1)); [reflexivity| | |].
  - apply in_seq. lia.
  - intros s. unfold mb_tip_step_int. destruct s. cbv zeta. destruct (N.leb_spec (2 ^ 31) (N.of_nat (i * kBlocksInTipSize U + (kBlocksInTipSize U - 1)))); [reflexivity|nia].
  - intros s o _. apply plain_cases, plain_tip_step.
Qed.

Lemma num_types_one : forall U v m, okU U -> mb_num_types U v = Ok m -> ((exists i x, mb_get U v i = Ok x /\ x <> 0%N) <-> 2 <= m).
Proof.
  intros U v m HU E. destruct (num_types_ok U v HU) as (m' & E' & _ & A). assert (m' = m) by congruence. subst m'. clear E'.
  assert (OUT : forall i, per U * length (mb_bits v) <= i -> mb_get U v i = UB).
  { intros i Hi. unfold mb_get. rewrite mb_abs_per by auto. destruct (per_facts U HU) as (P & _). destruct (Nat.lt_ge_cases (i / per U) (length (mb_bits v))) as [L|L].
    - apply div_lt_mul in L; auto. lia.
    - rewrite (proj2 (lget_UB _ _ _)) by auto. reflexivity. }
  split.
  - intros (i & x & G & X). destruct (Nat.lt_ge_cases i (per U * length (mb_bits v))) as [L|L]; [|rewrite OUT in G by auto; discriminate].
    rewrite mb_get_elem in G by auto. specialize (A i L). assert (elem U (mb_bits v) i = x) by congruence. lia.
  - intros M. unfold mb_num_types in E. revert E M. generalize (length (mb_bits v) * kBitsInType U / U) as n. intros n. revert m A.
    assert (H : forall n m, foldM (fun n i => do x <- mb_get U v i; Ok (Nat.max n (N.to_nat x + 1))) (seq 0 n) 0 = Ok m -> 2 <= m -> exists i x, mb_get U v i = Ok x /\ x <> 0%N).
    { clear n. induction n as [|n IH]; intros m E M; [cbn in E; injection E as <-; lia|]. rewrite seq_S, foldM_app in E. apply bind_Ok_inv in E. destruct E as (m1 & E1 & E2).
      cbn [foldM Nat.add] in E2. apply bind_Ok_inv in E2. destruct E2 as (m2 & E2 & E3). injection E3 as ->. apply bind_Ok_inv in E2. destruct E2 as (x & G & E2). injection E2 as <-.
      destruct (N.eq_dec x 0) as [->|X]; [|eauto]. apply (IH m1 E1). cbn [N.to_nat] in M. lia. }
    intros m _ E M. exact (H n m E M).
Qed.

Lemma multibit_limit : forall U v r, okU U -> (N.of_nat (length (mb_bits v)) < 2 ^ 53)%N -> is_rounded_up (length (mb_bits v)) (4 * U) r ->
  ((exists i x, mb_get U v i = Ok x /\ x <> 0%N) -> (2 ^ 31 < N.of_nat r)%N -> mb_build_int U v = UB) /\
  (~ (exists i x, mb_get U v i = Ok x /\ x <> 0%N) \/ (N.of_nat r <= 2 ^ 31)%N -> mb_build_int U v = mb_build U v).
Proof.
  intros U v r HU Hn (R1 & R2). unfold mb_build_int, mb_build. destruct (per_facts U HU) as (_ & _ & _ & _ & K & B & _).
  destruct (Nat.eqb_spec (length (mb_bits v)) 0) as [Z|Z].
  { split; auto. intros _ H. exfalso. rewrite Z in R2. assert (r < 12) by lia. apply (N.lt_irrefl (2 ^ 31)). apply N.lt_trans with (N.of_nat r); auto. apply N.lt_trans with 12%N; [lia|reflexivity]. }
  destruct (num_types_ok U v HU) as (m & E & M & _). rewrite E. cbn [bind]. pose proof (num_types_one U v m HU E) as ONE.
  assert (T : N.to_nat (double_ceil (N.of_nat (length (mb_bits v))) (N.of_nat (kBlocksInTipSize U))) = (length (mb_bits v) + kBlocksInTipSize U - 1) / kBlocksInTipSize U).
  { rewrite double_exact by (rewrite ?K; change (2 ^ 53)%N with 9007199254740992%N in *; lia). rewrite K. replace (N.of_nat (length (mb_bits v)) + N.of_nat (4 * U) - 1)%N with (N.of_nat (length (mb_bits v) + 4 * U - 1)) by lia.
    rewrite <- Nat2N.inj_div, Nat2N.id. reflexivity. }
  rewrite T. clear T. set (ts := (length (mb_bits v) + kBlocksInTipSize U - 1) / kBlocksInTipSize U).
  assert (RT : r = ts * kBlocksInTipSize U).
  { unfold ts. rewrite K. pose proof (Nat.div_mod (length (mb_bits v) + 4 * U - 1) (4 * U) ltac:(lia)) as D. pose proof (Nat.mod_upper_bound (length (mb_bits v) + 4 * U - 1) (4 * U) ltac:(lia)) as Q.
    pose proof (Nat.div_mod r (4 * U) ltac:(lia)) as D2. set (a := (length (mb_bits v) + 4 * U - 1) / (4 * U)) in *. set (b := (length (mb_bits v) + 4 * U - 1) mod (4 * U)) in *. set (c := r / (4 * U)) in *. clearbody a b c.
    rewrite R1, Nat.add_0_r in D2. assert (c = a); [|nia]. nia. }
  clearbody ts. split.
  - intros EX H. assert (M2 : 2 <= m) by now apply ONE. rewrite (foldM_UB _ _ _ _ 1); [reflexivity| | |].
    + apply in_seq. lia.
    + intros all. rewrite (foldM_UB _ _ _ _ (ts - 1)); [reflexivity| | |].
      * apply in_seq. destruct ts; [cbn in RT; subst r; lia|lia].
      * intros st. apply tip_outside; auto. replace (ts - 1 + 1) with ts by (destruct ts; [cbn in RT; subst r; lia|lia]). now rewrite <- RT.
      * intros st i _. apply plain_cases, plain_tip.
    + intros all type _. apply plain_cases. plains. apply plain_tip.
  - intros H. destruct H as [H|H].
    + assert (M2 : m - 1 = 0) by (destruct (Nat.lt_ge_cases m 2) as [L|L]; [lia|exfalso; apply H, ONE; auto]). rewrite M2. reflexivity.
    + f_equal. apply foldM_ext2. intros all type _. f_equal. apply foldM_ext2. intros st i I. apply in_seq in I. apply tip_within; auto. nia.
Qed.
