(** SA-IS on strings with further zeros: the names of the first pass and the recursion. *)
From Coq Require Import List NArith ZArith Arith Bool Lia Permutation Sorted.
From Verif Require Import Base SuffixModel SuffixProof SaisRows SaisPut SaisInduce SaisZero.
Import ListNotations.
Local Open Scope nat_scope.

(** ** Lists of options *)
Lemma somes_upd : forall l i v, nth_error l i = Some None -> length (somes (upd l i (Some v))) = S (length (somes l)).
Proof.
  induction l as [|[x|] l IH]; intros [|i] v H; try discriminate; cbn [nth_error] in H; cbn [upd].
  - change (length (x :: somes (upd l i (Some v))) = S (length (x :: somes l))). cbn [length]. rewrite IH; auto.
  - change (length (v :: somes l) = S (length (somes l))). reflexivity.
  - change (length (somes (upd l i (Some v))) = S (length (somes l))). auto.
Qed.
Lemma somes_nth : forall l v, In v (somes l) <-> exists j, nth_error l j = Some (Some v).
Proof. intros l v. rewrite in_somes. split; [apply In_nth_error|intros (j & J); eapply nth_error_In; eauto]. Qed.
Definition places (l : list (option nat)) : list nat := filter (fun j => match nth j l None with Some _ => true | None => false end) (seq 0 (length l)).
Lemma places_length : forall l, length (places l) = length (somes l).
Proof.
  unfold places. intros l. assert (G : forall l (f : nat -> option nat) a, (forall i, i < length l -> f (a + i) = nth i l None) -> length (filter (fun j => match f j with Some _ => true | None => false end) (seq a (length l))) = length (somes l)).
  { clear. induction l as [|x l IH]; intros f a H; [reflexivity|]. cbn [length seq filter]. pose proof (H 0 ltac:(cbn [length]; lia)) as H0. rewrite Nat.add_0_r in H0. cbn [nth] in H0. rewrite H0.
    assert (R : length (filter (fun j => match f j with Some _ => true | None => false end) (seq (S a) (length l))) = length (somes l)).
    { apply IH. intros i I. specialize (H (S i) ltac:(cbn [length]; lia)). cbn [nth] in H. rewrite <- H. f_equal. lia. }
    destruct x; cbn [length]; rewrite R; reflexivity. }
  apply (G l (fun j => nth j l None) 0). intros i _. reflexivity.
Qed.
Lemma zeros_none : forall l, (forall j, nth_error l j <> Some (Some 0)) -> filter (fun x => x =? 0) (somes l) = [].
Proof.
  intros l H. assert (G : forall x, In x (somes l) -> x <> 0). { intros x X ->. apply somes_nth in X. destruct X as (j & J). exact (H j J). }
  induction (somes l) as [|x t IH]; [reflexivity|]. cbn [filter]. destruct (Nat.eqb_spec x 0) as [->|]; [exfalso; apply (G 0); [left|]; auto|]. apply IH. intros; apply G; right; auto.
Qed.
Lemma zeros_one : forall l q, nth_error l q = Some (Some 0) -> (forall j, nth_error l j = Some (Some 0) -> j = q) -> length (filter (fun x => x =? 0) (somes l)) = 1.
Proof.
  induction l as [|x l IH]; intros [|q] H U; try discriminate; cbn [nth_error] in H.
  - injection H as ->. change (somes (Some 0 :: l)) with (0 :: somes l). cbn [filter Nat.eqb length]. rewrite zeros_none; [reflexivity|]. intros j J. specialize (U (S j) J). discriminate.
  - assert (R : length (filter (fun x => x =? 0) (somes l)) = 1). { apply (IH q H). intros j J. specialize (U (S j) J). lia. }
    destruct x as [v|]; [|exact R]. change (somes (Some v :: l)) with (v :: somes l). cbn [filter]. destruct (Nat.eqb_spec v 0) as [->|]; [|exact R]. specialize (U 0 eq_refl). discriminate.
Qed.
Lemma squeeze_pad : forall sub k, length (somes sub) <= k -> squeeze k sub = Ok (somes sub ++ repeat 0 (k - length (somes sub))).
Proof.
  intros sub k LK. unfold squeeze. assert (G : forall sub a (b c : list nat), length b = length (somes sub) ->
    foldM (fun st x => let '(l, i) := st in match x with None => Ok st | Some v => do l <- lset l i v; Ok (l, S i) end) sub (a ++ b ++ c, length a) = Ok (a ++ somes sub ++ c, length a + length (somes sub))).
  { clear. induction sub as [|[v|] sub IH]; intros a b c L.
    - destruct b; [|discriminate]. cbn [foldM somes length app flat_map]. rewrite Nat.add_0_r. reflexivity.
    - change (somes (Some v :: sub)) with (v :: somes sub) in *. destruct b as [|y b]; [discriminate|]. cbn [foldM app]. rewrite lset_Ok by (rewrite app_length; cbn [length]; lia). cbn [bind].
      replace (upd (a ++ y :: b ++ c) (length a) v) with ((a ++ [v]) ++ b ++ c). 2:{ replace (length a) with (length a + 0) at 1 by lia. rewrite upd_app2. rewrite <- app_assoc. reflexivity. }
      replace (S (length a)) with (length (a ++ [v])) by (rewrite app_length; cbn [length]; lia). rewrite IH by (cbn [length] in L; lia). rewrite <- app_assoc, app_length. cbn [app length]. do 2 f_equal. lia.
    - change (somes (None :: sub)) with (somes sub) in *. cbn [foldM bind]. apply IH. exact L. }
  specialize (G sub [] (repeat 0 (length (somes sub))) (repeat 0 (k - length (somes sub)))). cbn [app length] in G. rewrite <- repeat_app in G. replace (length (somes sub) + (k - length (somes sub))) with k in G by lia.
  rewrite G by apply repeat_length. reflexivity.
Qed.

(** ** Naming never aborts *)
Definition okub {A} (r : res A) : Prop := r = UB \/ exists a, r = Ok a.
Lemma lget_okub : forall A (l : list A) i, okub (lget l i).
Proof. intros A l i. destruct (lt_dec i (length l)) as [H|H]. - right. destruct (lget l i) eqn:E; [eauto| | |]; unfold lget in E; destruct (nth_error l i) eqn:Q; try discriminate; apply nth_error_None in Q; lia. - left. apply lget_UB. lia. Qed.
Lemma bind_okub : forall A B (r : res A) (f : A -> res B), okub r -> (forall a, r = Ok a -> okub (f a)) -> okub (bind r f).
Proof. intros A B r f [->|(a & ->)] H; [left; reflexivity|]. cbn [bind]. apply H. reflexivity. Qed.
Lemma equal_okub : forall str ts fuel cur li ri, length str - li < fuel -> okub (equal_lms fuel str ts cur li ri).
Proof.
  intros str ts. induction fuel as [|fuel IH]; intros cur li ri F; [lia|]. cbn [equal_lms]. destruct (lt_dec li (length str)) as [L|L].
  - apply bind_okub; [apply lget_okub|]. intros a _. apply bind_okub; [apply lget_okub|]. intros b _. destruct (negb (a =? b)%N); [right; eauto|]. apply bind_okub; [apply lget_okub|]. intros t _.
    destruct (negb cur && t); [right; eauto|]. apply IH. lia.
  - left. assert (E : lget str li = UB) by (apply lget_UB; lia). rewrite E. reflexivity.
Qed.
Lemma name_okub : forall str ts st x, okub (name_step str ts st x).
Proof.
  intros str ts [[sub c] last] [[|j]|]; cbn [name_step]; [right; eauto| |left; reflexivity]. apply bind_okub; [apply lget_okub|]. intros t0 _. apply bind_okub; [apply lget_okub|]. intros t1 _. destruct (negb t0 && t1); [|right; eauto].
  apply bind_okub. { destruct (0 <? last); [|right; eauto]. apply bind_okub; [apply equal_okub; lia|]. intros e _. right; eauto. }
  intros c' _. apply bind_okub; [|intros; right; eauto]. unfold lset. destruct (_ <? _); [right; eauto|left; reflexivity].
Qed.
Lemma fold_okub : forall A B (f : A -> B -> res A), (forall a b, okub (f a b)) -> forall l a, okub (foldM f l a).
Proof. intros A B f H. induction l as [|x l IH]; intros a; cbn [foldM]; [right; eauto|]. apply bind_okub; auto. Qed.
Lemma equal_self : forall str ts fuel cur q e, equal_lms fuel str ts cur q q = Ok e -> e = true.
Proof.
  intros str ts. induction fuel as [|fuel IH]; intros cur q e H; [discriminate|]. cbn [equal_lms] in H. destruct (lget str q) as [a| | |]; try discriminate. cbn [bind] in H. rewrite N.eqb_refl in H. cbn [negb] in H.
  destruct (lget ts q) as [t| | |]; try discriminate. cbn [bind] in H. destruct (negb cur && t); [congruence|]. eauto.
Qed.

Section Name.
Variables (str : list N) (maxv : nat).
Hypothesis HV : ended str maxv.
Notation n := (length str).
Notation ts := (classified str).
Notation lms := (find_lms (classified str)).
Variable q : nat.
Hypothesis Q1 : q < n - 1.
Hypothesis Q2 : ch str q = 0.

Hypothesis only : forall p, p < n -> ch str p = 0 -> p = q \/ p = n - 1.
Record Inv (sub : list (option nat)) (c last : nat) : Prop := {
  i_len : length sub = n;
  i_q : nth_error sub q = Some (Some 0);
  i_all : forall j v, nth_error sub j = Some (Some v) -> lmsb str j = true /\ j < n - 1 /\ v <= c /\ (v = 0 -> j = q);
  i_cnt : c + 1 <= length (somes sub);
  i_last : 1 <= last /\ (c = 0 -> last = q)
}.
Lemma name_inv : forall sub c last x sub' c' last', Inv sub c last -> x <> q -> x < n - 1 -> nth_error sub x = Some None -> name_step str ts (sub, c, last) (Some x) = Ok (sub', c', last') ->
  Inv sub' c' last' /\ forall j, j <> x -> nth_error sub' j = nth_error sub j.
Proof.
  intros sub c last x sub' c' last' I X1 X2 XN E. destruct x as [|j]; cbn [name_step] in E; [injection E as <- <- <-; auto|].
  rewrite !(lget_ty str maxv HV) in E by lia. cbn [bind] in E. destruct (negb (ty str j) && ty str (S j)) eqn:T; [|injection E as <- <- <-; auto].
  assert (LB : lmsb str (S j) = true). { apply (lmsb_spec str maxv HV). rewrite Nat.sub_succ, Nat.sub_0_r. apply andb_true_iff in T. destruct T as [T1 T2]. apply negb_true_iff in T1. split; [lia|]. split; [lia|auto]. }
  apply bind_Ok_inv in E. destruct E as (c1 & E1 & E). assert (C1 : (c1 = c /\ 1 <= c) \/ c1 = S c).
  { destruct (i_last _ _ _ I) as [L1 L2]. destruct (Nat.ltb_spec 0 last); [|lia]. apply bind_Ok_inv in E1. destruct E1 as (e & E1 & E2). destruct c as [|c0].
    - right. specialize (L2 eq_refl). subst last. cbn [equal_lms] in E1. rewrite (lget_nth _ _ q 0%N), (lget_nth _ _ (S j) 0%N) in E1 by lia. cbn [bind] in E1.
      assert (D : nth q str 0%N <> nth (S j) str 0%N). { intros D. destruct (only (S j)); [lia|unfold ch in *; rewrite <- D; exact Q2|lia|lia]. }
      destruct (N.eqb_spec (nth q str 0%N) (nth (S j) str 0%N)); [congruence|]. cbn [negb] in E1. injection E1 as <-. injection E2 as <-. reflexivity.
    - destruct e; injection E2 as <-; [left; lia|right; reflexivity]. }
  apply bind_Ok_inv in E. destruct E as (s1 & E2 & E). apply lset_inv in E2. destruct E2 as [B ->]. injection E as <- <- <-. pose proof (i_len _ _ _ I) as IL.
  assert (O : forall i, i <> S j -> nth_error (upd sub (S j) (Some c1)) i = nth_error sub i). { intros i Hi. rewrite nth_error_upd. destruct (Nat.eqb_spec i (S j)); [congruence|reflexivity]. }
  split; [|exact O]. split.
  - rewrite upd_length. exact IL.
  - rewrite O by auto. apply (i_q _ _ _ I).
  - intros i v V. destruct (Nat.eq_dec i (S j)) as [->|Ni].
    + rewrite nth_error_upd, Nat.eqb_refl in V. destruct (Nat.ltb_spec (S j) (length sub)); [|lia]. cbn [andb] in V. injection V as <-. split; auto. split; auto. split; [lia|]. intros Z. lia.
    + rewrite O in V by auto. destruct (i_all _ _ _ I i v V) as (A1 & A2 & A3 & A4). split; auto. split; auto. split; [lia|auto].
  - rewrite somes_upd by auto. pose proof (i_cnt _ _ _ I). lia.
  - split; [lia|]. intros Z. lia.
Qed.
Lemma names_inv : forall l sub c last sub' c' last', Inv sub c last -> NoDup (somes l) -> (forall p, In p (somes l) -> p <> q /\ p < n - 1 /\ nth_error sub p = Some None) ->
  foldM (name_step str ts) l (sub, c, last) = Ok (sub', c', last') -> Inv sub' c' last'.
Proof.
  induction l as [|x l IH]; intros sub c last sub' c' last' I N H E; cbn [foldM] in E; [injection E as <- <- <-; auto|]. apply bind_Ok_inv in E. destruct E as ([[s1 c1] l1] & E1 & E2).
  destruct x as [x|]; [|discriminate]. change (somes (Some x :: l)) with (x :: somes l) in *. destruct (H x (or_introl eq_refl)) as (H1 & H2 & H3). inversion N; subst.
  destruct (name_inv _ _ _ _ _ _ _ I H1 H2 H3 E1) as (I1 & K). apply (IH _ _ _ _ _ _ I1 H6) in E2; auto. intros p P. destruct (H p (or_intror P)) as (P1 & P2 & P3). split; auto. split; auto. rewrite K; auto. intros ->. auto.
Qed.
End Name.

(** a terminated string with a zero that is not LMS, or with just one zero besides the last *)
Definition zclass (str : list N) (maxv : nat) : Prop := ended str maxv /\ (exists i, i < length str - 1 /\ ch str i = 0) /\ (cnt str 0 = 2 \/ exists p, p < length str /\ ch str p = 0 /\ lmsb str p = false).
Lemma only_two : forall str maxv q, ended str maxv -> q < length str - 1 -> ch str q = 0 -> cnt str 0 = 2 -> forall p, p < length str -> ch str p = 0 -> p = q \/ p = length str - 1.
Proof.
  intros str maxv q HV B Z C p P Zp. destruct (Nat.eq_dec p q) as [|N1]; [auto|]. destruct (Nat.eq_dec p (length str - 1)) as [|N2]; [auto|]. exfalso.
  assert (3 <= cnt str 0); [|lia]. change 3 with (length [p; q; length str - 1]). apply (cap str maxv HV).
  - repeat constructor; cbn [In]; lia.
  - intros y [<-|[<-|[<-|[]]]]; split; auto; try lia. apply (ch_last str maxv HV).
Qed.
Lemma filter_of_nat : forall l, length (filter (fun x => N.to_nat x =? 0) (map N.of_nat l)) = length (filter (fun x => x =? 0) l).
Proof. induction l as [|x l IH]; [reflexivity|]. cbn [map filter]. rewrite Nat2N.id. destruct (x =? 0); cbn [length]; rewrite IH; reflexivity. Qed.
Lemma zero_class_sub : forall l k c, 1 <= length l -> S (length l) <= k -> (forall v, In v l -> v <= c) -> length (filter (fun x => x =? 0) l) = 1 -> zclass (map N.of_nat (l ++ repeat 0 (k - length l))) c.
Proof.
  intros l k c L1 L2 M Z1. set (w := l ++ repeat 0 (k - length l)). assert (LW : length w = k) by (unfold w; rewrite app_length, repeat_length; lia).
  assert (NW : forall i, nth i (map N.of_nat w) 0%N = N.of_nat (nth i w 0)). { intros i. rewrite <- (map_nth N.of_nat). reflexivity. }
  assert (CW : forall i, ch (map N.of_nat w) i = nth i w 0). { intros i. unfold ch. rewrite NW. lia. }
  assert (Zw : forall i, length l <= i -> nth i w 0 = 0). { intros i I. unfold w. rewrite app_nth2 by auto. apply nth_repeat. }
  assert (HV : ended (map N.of_nat w) c).
  { split; rewrite ?map_length, ?LW.
    - lia.
    - rewrite nth_indep with (d' := 0%N) by (rewrite map_length; lia). rewrite NW, Zw by lia. reflexivity.
    - intros i I. rewrite NW. destruct (lt_dec i (length l)) as [A|A]; [|rewrite Zw by lia; lia]. unfold w. rewrite app_nth1 by auto. specialize (M (nth i l 0) (nth_In _ _ A)). lia. }
  split; [exact HV|]. rewrite map_length, LW. split.
  - assert (I0 : In 0 l). { destruct (filter (fun x => x =? 0) l) as [|y t] eqn:F; [discriminate|]. assert (Y : In y (filter (fun x => x =? 0) l)) by (rewrite F; left; auto). apply filter_In in Y. destruct Y as [Y Y']. apply Nat.eqb_eq in Y'. rewrite <- Y'. exact Y. }
    destruct (In_nth _ _ 0 I0) as (i & I1 & I2). exists i. split; [lia|]. rewrite CW. unfold w. rewrite app_nth1; auto.
  - destruct (Nat.eq_dec k (S (length l))) as [->|N].
    + left. rewrite (cnt_occ _ _ HV). unfold w. replace (S (length l) - length l) with 1 by lia. cbn [repeat]. rewrite map_app, filter_app, app_length. cbn [map filter]. change (N.to_nat (N.of_nat 0) =? 0) with true. cbn [length].
      rewrite filter_of_nat, Z1. reflexivity.
    + right. exists (k - 1). split; [lia|]. split; [rewrite CW; apply Zw; lia|]. destruct (lmsb (map N.of_nat w) (k - 1)) eqn:B; auto. apply (lmsb_spec _ _ HV) in B. destruct B as (_ & _ & B & _).
      rewrite (zero_S _ _ HV (length (map N.of_nat w))) in B; [discriminate|lia|rewrite map_length; lia|]. rewrite CW. apply Zw. lia.
Qed.

Theorem sais_zero : forall fuel str maxv, zclass str maxv -> length str <= fuel -> sais fuel str maxv = UB.
Proof.
  induction fuel as [|fuel IH]; intros str maxv (HV & HZ & HC) F; [pose proof (n2 _ _ HV); lia|]. pose proof (n2 _ _ HV) as N2. cbn [sais].
  destruct (induce_zero str maxv HV HZ) as (x & L & R & E & GL & GR & IR & CP & X). rewrite E. cbn [bind]. destruct X as [->|(q & -> & Q1 & Q2 & Q3)].
  { cbn [foldM name_step bind]. reflexivity. }
  destruct HC as [C2|(p & P1 & P2 & P3)]. 2:{ rewrite (Q3 p) in P3 by auto. discriminate. }
  pose proof (only_two str maxv q HV Q1 Q2 C2) as only. assert (Q4 : lmsb str q = true) by (apply Q3; auto; lia).
  set (lms := find_lms (classified str)) in *. set (ts := classified str) in *.
  pose proof (fold_okub _ _ _ (name_okub str ts) (Some q :: tl (pic str maxv L R)) (repeat None (length str), 0, 0)) as OK. destruct OK as [OK|([[sub c] last] & OK)]; rewrite OK; [reflexivity|]. cbn [bind].
  (* the first two entries are both q *)
  assert (INV : Inv str q sub c last).
  { cbn [foldM] in OK. apply bind_Ok_inv in OK. destruct OK as ([[s1 c1] l1] & O1 & O2). destruct (proj1 (lmsb_spec _ _ HV q) Q4) as (A1 & A2 & A3 & A4). destruct q as [|j]; [lia|]. rewrite Nat.sub_succ, Nat.sub_0_r in A3.
    cbn [name_step] in O1. unfold ts in O1. rewrite !(lget_ty str maxv HV) in O1 by lia. cbn [bind] in O1. rewrite A3, A4 in O1. cbn [negb andb] in O1. change (0 <? 0) with false in O1. cbn iota in O1. cbn [bind] in O1.
    rewrite lset_Ok in O1 by (rewrite repeat_length; lia). cbn [bind] in O1. injection O1 as <- <- <-. set (q := S j) in *. set (s1 := upd (repeat None (length str)) q (Some 0)) in *.
    assert (I1 : Inv str q s1 0 q).
    { assert (V : forall i v, nth_error s1 i = Some (Some v) -> i = q /\ v = 0).
      { intros i v V. unfold s1 in V. rewrite nth_error_upd, repeat_length in V. destruct (Nat.eqb_spec i q) as [->|]; cbn [andb] in V. - destruct (q <? length str); [|apply nth_error_In, repeat_spec in V; discriminate]. injection V as <-. auto. - apply nth_error_In, repeat_spec in V. discriminate. }
      split.
      - unfold s1. rewrite upd_length, repeat_length. reflexivity.
      - unfold s1. rewrite nth_error_upd, repeat_length, Nat.eqb_refl. cbn [andb]. destruct (Nat.ltb_spec q (length str)); [reflexivity|lia].
      - intros i v H. apply V in H. destruct H as [-> ->]. auto.
      - unfold s1. rewrite somes_upd; [lia|]. apply nth_error_repeat. lia.
      - split; [lia|auto]. }
    pose proof (pic_length str maxv HV L R CP) as PL. pose proof (head_none str maxv HV HZ L R GL GR IR CP) as H0. pose proof (inner_zero str maxv HV R GR IR) as R0. rewrite C2 in R0.
    assert (H1 : nth 1 (pic str maxv L R) None = nth 1 (row [] (R 0) 2) None). { rewrite <- C2, <- (L0_nil str maxv HV L GL). apply (pic_at str maxv HV L R 0 1); auto; lia. }
    destruct (pic str maxv L R) as [|y0 [|y1 rest]] eqn:PE; [cbn [length] in PL; lia|cbn [length] in PL; lia|]. cbn [nth] in H0, H1. subst y0. cbn [tl foldM] in O2.
    destruct (R 0) as [|p [|p' t]] eqn:ER; [|clear R0|cbn [length] in R0; lia].
    { cbn in H1. subst y1. discriminate. }
    change (y1 = Some p) in H1. subst y1.
    assert (p = q) as ->.
    { destruct (GR 0 ltac:(lia)) as [_ M]. destruct (M p) as (M1 & M2 & _); [rewrite ER; left; auto|]. destruct (only p M1 M2); auto. assert (S p < length str) by (apply (IR 0 p); [lia|rewrite ER; left; auto]). lia. }
    apply bind_Ok_inv in O2. destruct O2 as ([[s2 c2] l2] & O2 & O3).
    assert (ST : (s2, c2, l2) = (s1, 0, q)).
    { unfold q in O2. cbn [name_step] in O2. unfold ts in O2. rewrite !(lget_ty str maxv HV) in O2 by lia. cbn [bind] in O2. fold q in O2. rewrite A3, A4 in O2. cbn [negb andb] in O2. change (0 <? q) with true in O2. cbn iota in O2.
      apply bind_Ok_inv in O2. destruct O2 as (c3 & O2 & O4). apply bind_Ok_inv in O2. destruct O2 as (e & O2 & O5). apply equal_self in O2. subst e. injection O5 as <-.
      apply bind_Ok_inv in O4. destruct O4 as (s4 & O4 & O5). apply lset_inv in O4. destruct O4 as [B ->]. injection O5 as <- <- <-. f_equal. f_equal. unfold s1. clear. generalize (repeat (@None nat) (length str)) q. intros l. induction l as [|x l IH]; intros [|i]; cbn [upd]; auto. rewrite IH. reflexivity. }
    injection ST as -> -> ->.
    pose proof (good_nodup str maxv L R GL GR) as ND. rewrite PE in ND. change (NoDup (q :: somes rest)) in ND. inversion ND as [|? ? NI ND']; subst.
    refine (names_inv str maxv HV q Q1 Q2 only rest s1 0 q sub c last I1 ND' _ O3).
    intros p P. assert (PI : In (Some p) (pic str maxv L R)) by (rewrite PE; right; right; apply in_somes; auto). destruct (good_in str maxv L R p PI GL GR) as (P1 & P2 & P3).
    assert (PQ : p <> q) by (intros ->; auto). assert (PN : p < length str - 1).
    { destruct (Nat.eq_dec p (length str - 1)) as [->|]; [|lia]. destruct P2 as [P2|P2]; [destruct (GL _ P3) as [_ M]; destruct (M _ P2) as (_ & _ & T); rewrite (ty_last str maxv HV) in T; discriminate|]. apply (IR _ _ P3) in P2. lia. }
    split; auto. split; auto. unfold s1. rewrite nth_error_upd, repeat_length. destruct (Nat.eqb_spec p q); [congruence|]. cbn [andb]. apply nth_error_repeat. lia. }
  (* all named positions are LMS, the last is not named *)
  assert (LN : S (length (somes sub)) <= length lms).
  { rewrite <- places_length. change (S (length (places sub))) with (length ((length str - 1) :: places sub)).
    assert (W : forall j, In j (places sub) -> lmsb str j = true /\ j < length str - 1).
    { intros j J. unfold places in J. apply filter_In in J. destruct J as [J1 J2]. apply in_seq in J1. destruct (nth j sub None) as [v|] eqn:V; [|discriminate]. destruct (i_all _ _ _ _ _ INV j v) as (B1 & B2 & _); auto. rewrite <- V. apply nth_error_nth'. lia. }
    apply NoDup_incl_length. - constructor; [intros J; apply W in J; lia|]. apply NoDup_filter, seq_NoDup.
    - intros j J. apply (in_lms str maxv HV). destruct J as [<-|J]; [|apply W; auto]. apply Q3; [lia|apply (ch_last str maxv HV)]. }
  pose proof (i_cnt _ _ _ _ _ INV) as IC. rewrite squeeze_pad by lia. cbn [bind]. destruct (Nat.eqb_spec (length lms) (S c)); [lia|].
  rewrite IH; [reflexivity| |].
  - apply zero_class_sub; [lia|lia| |].
    + intros v V. apply somes_nth in V. destruct V as (j & J). apply (i_all _ _ _ _ _ INV) in J. tauto.
    + apply (zeros_one sub q (i_q _ _ _ _ _ INV)). intros j J. destruct (i_all _ _ _ _ _ INV j 0 J) as (_ & _ & _ & W). auto.
  - rewrite map_length, app_length, repeat_length. assert (length lms <= length ts - 1) by (unfold lms, find_lms; rewrite <- (seq_length (length ts - 1) 1) at 2; clear; generalize (seq 1 (length ts - 1)); intros l; induction l as [|y l IHl]; [reflexivity|]; cbn [filter]; destruct (is_lms ts y); cbn [length]; lia).
    unfold ts in *. rewrite (ts_len str maxv HV) in *. lia.
Qed.

(** ** The constructor *)
Lemma zclass_of : forall s, Forall (fun c => (c < 128)%N) s -> In 0%N s -> (cnt (s ++ [0%N]) 0 = 2 \/ exists p, p <= length s /\ nth p (s ++ [0%N]) 1%N = 0%N /\ (p = 0 \/ nth (p - 1) (s ++ [0%N]) 1%N = 0%N)) -> suffix_array s = UB.
Proof.
  intros s F Z C. assert (LE : length (s ++ [0%N]) = S (length s)) by (rewrite app_length; cbn [length]; lia).
  assert (NE : 1 <= length s) by (destruct s; [destruct Z|cbn [length]; lia]).
  assert (HV : ended (s ++ [0%N]) 255).
  { split; rewrite ?LE; [lia| |].
    - rewrite Nat.sub_succ, Nat.sub_0_r, app_nth2, Nat.sub_diag by lia. reflexivity.
    - intros i I. destruct (lt_dec i (length s)) as [A|A]. + rewrite app_nth1 by auto. pose proof (proj1 (Forall_forall _ _) F _ (nth_In s 0%N A)). cbv beta in H. change (N.of_nat 255) with 255%N. lia.
      + rewrite app_nth2 by lia. replace (i - length s) with 0 by lia. cbn. lia. }
  assert (S0 : sais_str s = s ++ [0%N]). { unfold sais_str. f_equal. clear - F. induction F as [|x l Hx F IH]; [reflexivity|]. cbn [map]. rewrite IH. destruct (N.ltb_spec x 128); [reflexivity|lia]. }
  unfold suffix_array, build_sa. rewrite S0, (sais_zero (S (length s)) (s ++ [0%N]) 255); [reflexivity| |lia].
  split; [exact HV|]. split.
  - destruct (In_nth _ _ 1%N Z) as (i & I & E). exists i. rewrite LE. split; [lia|]. unfold ch. rewrite app_nth1 by auto. rewrite nth_indep with (d' := 1%N), E by auto. reflexivity.
  - destruct C as [C|(p & P & E & C)]; [left; exact C|]. right. exists p. assert (E' : ch (s ++ [0%N]) p = 0) by (unfold ch; rewrite nth_indep with (d' := 1%N), E by lia; reflexivity). split; [lia|]. split; [exact E'|].
    destruct (lmsb (s ++ [0%N]) p) eqn:B; auto. apply (lmsb_spec _ _ HV) in B. destruct B as (B1 & _ & B2 & _). destruct C as [C|C]; [lia|].
    rewrite (zero_S _ _ HV (length (s ++ [0%N]))) in B2; [discriminate|lia|lia|]. unfold ch. rewrite nth_indep with (d' := 1%N), C by lia. reflexivity.
Qed.
Lemma high_or_low : forall s, (Forall (fun c => (c < 128)%N) s -> suffix_array s = UB) -> suffix_array s = UB.
Proof.
  intros s H. destruct (forallb (fun c => (c <? 128)%N) s) eqn:E.
  - apply H. apply Forall_forall. intros c C. apply N.ltb_lt. exact (proj1 (forallb_forall _ _) E c C).
  - assert (X : exists c, In c s /\ (128 <= c)%N). { clear H. induction s as [|c s IH]; [discriminate|]. cbn [forallb] in E. destruct (N.ltb_spec c 128) as [C|C]; [|exists c; split; [left|]; auto]. destruct IH as (d & D1 & D2); auto. exists d. split; [right|]; auto. }
    destruct X as (c & I & C). exact (high_byte_UB s c I C).
Qed.
Theorem zero_first : forall b, suffix_array (0%N :: b) = UB.
Proof. intros b. apply high_or_low. intros F. apply zclass_of; auto; [left; auto|]. right. exists 0. split; [lia|]. split; [reflexivity|left; auto]. Qed.
Theorem zero_last : forall a, suffix_array (a ++ [0%N]) = UB.
Proof.
  intros a. apply high_or_low. intros F. apply zclass_of; auto; [apply in_or_app; right; left; auto|]. right. exists (S (length a)). rewrite app_length. cbn [length]. split; [lia|]. split.
  - rewrite app_nth2 by (rewrite app_length; cbn [length]; lia). rewrite app_length. cbn [length]. replace (S (length a) - (length a + 1)) with 0 by lia. reflexivity.
  - right. rewrite Nat.sub_succ, Nat.sub_0_r, <- app_assoc, app_nth2, Nat.sub_diag by lia. reflexivity.
Qed.
Theorem zero_twice : forall a b, suffix_array (a ++ 0%N :: 0%N :: b) = UB.
Proof.
  intros a b. apply high_or_low. intros F. apply zclass_of; auto; [apply in_or_app; right; left; auto|]. right. exists (S (length a)). rewrite app_length. cbn [length]. split; [lia|]. rewrite <- app_assoc. split.
  - rewrite app_nth2 by lia. replace (S (length a) - length a) with 1 by lia. reflexivity.
  - right. rewrite Nat.sub_succ, Nat.sub_0_r, app_nth2, Nat.sub_diag by lia. reflexivity.
Qed.
Theorem zero_single : forall a b, ~ In 0%N a -> ~ In 0%N b -> suffix_array (a ++ 0%N :: b) = UB.
Proof.
  intros a b A B. apply high_or_low. intros F. apply zclass_of; auto; [apply in_or_app; right; left; auto|]. left.
  assert (HN : forall l, ~ In 0%N l -> filter (fun x => N.to_nat x =? 0) l = []). { induction l as [|x l IH]; intros H; [reflexivity|]. cbn [filter]. destruct (Nat.eqb_spec (N.to_nat x) 0); [exfalso; apply H; left; lia|]. apply IH. intros X. apply H. right; auto. }
  rewrite <- app_assoc. cbn [app]. assert (G : forall l : list N, cnt l 0 = length (filter (fun x => N.to_nat x =? 0) l)).
  { clear. intros l. unfold cnt, ch. rewrite <- (map_length (fun i => nth i l 0%N)).
    assert (E : forall a, map (fun i => nth i l 0%N) (filter (fun i => N.to_nat (nth i l 0%N) =? 0) a) = filter (fun x => N.to_nat x =? 0) (map (fun i => nth i l 0%N) a)).
    { induction a as [|x a IH]; [reflexivity|]. cbn [filter map]. destruct (_ =? _); cbn [map]; rewrite IH; reflexivity. }
    rewrite E. do 2 f_equal. clear E. apply nth_ext with (d := 0%N) (d' := 0%N); [now rewrite map_length, seq_length|]. intros i H. rewrite map_length, seq_length in H. rewrite nth_map_seq by auto. reflexivity. }
  rewrite G, filter_app, HN by auto. cbn [filter app]. change (N.to_nat 0 =? 0) with true. cbn iota. rewrite filter_app, HN by auto. reflexivity.
Qed.
