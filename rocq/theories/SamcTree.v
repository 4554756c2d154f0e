(** The groups of keys met by the construction in SamcModel. *)
From Coq Require Import List NArith ZArith Arith Bool Lia Sorted.
From Verif Require Import Base Spec5 LcpProof SamcModel.
Import ListNotations.
Local Open Scope nat_scope.

Definition isp (p k : list N) : bool := if list_eq_dec N.eq_dec (firstn (length p) k) p then true else false.
Lemma isp_spec : forall p k, isp p k = true <-> exists r, k = p ++ r.
Proof.
  intros p k. unfold isp. destruct (list_eq_dec N.eq_dec (firstn (length p) k) p) as [E|E]; split; try discriminate; auto.
  - intros _. exists (skipn (length p) k). rewrite <- E at 1. rewrite firstn_skipn. reflexivity.
  - intros (r & ->). exfalso. apply E. rewrite firstn_app, Nat.sub_diag, firstn_all. cbn [firstn]. apply app_nil_r.
Qed.
Definition ch (d : nat) (k : list N) : N := nth d k 0%N.

Lemma char_at_ok : forall k d, d < length k -> char_at k d = Ok (ch d k).
Proof. intros k d H. unfold char_at. destruct (Nat.ltb_spec d (length k)); [|lia]. apply lget_nth. exact H. Qed.
Lemma filter_all : forall (A : Type) (f : A -> bool) l, (forall x, In x l -> f x = true) -> filter f l = l.
Proof. induction l as [|x l IH]; intros H; [reflexivity|]. cbn [filter]. rewrite (H x (or_introl eq_refl)). f_equal. apply IH. intros; apply H; right; auto. Qed.
Lemma filter_nil : forall (A : Type) (f : A -> bool) l, (forall x, In x l -> f x = false) -> filter f l = [].
Proof. induction l as [|x l IH]; intros H; [reflexivity|]. cbn [filter]. rewrite (H x (or_introl eq_refl)). apply IH. intros; apply H; right; auto. Qed.
Lemma SS_filter : forall (A : Type) (R : A -> A -> Prop) f l, StronglySorted R l -> StronglySorted R (filter f l).
Proof.
  intros A R f l H. induction H as [|x l S IH F]; [constructor|]. cbn [filter]. destruct (f x); auto. constructor; auto. rewrite Forall_forall in *. intros y Hy. apply filter_In in Hy. apply F. tauto.
Qed.

Definition mono (d : nat) : list (list N) -> Prop := StronglySorted (fun a b => (ch d a <= ch d b)%N).
Lemma take_group_ok : forall M d c, (forall k, In k M -> d < length k /\ (c <= ch d k)%N) -> mono d M ->
  take_group M d c = Ok (filter (fun k => (ch d k =? c)%N) M, filter (fun k => negb (ch d k =? c)%N) M).
Proof.
  induction M as [|k M IH]; intros d c H S; cbn [take_group filter]; [reflexivity|]. destruct (H k (or_introl eq_refl)) as [L G]. inversion S as [|x y S1 F]; subst.
  rewrite char_at_ok by exact L. cbn [bind]. destruct (N.eqb_spec (ch d k) c) as [E|E]; cbn [negb].
  - rewrite IH; [reflexivity| |exact S1]. intros; apply H; right; auto.
  - rewrite Forall_forall in F. rewrite filter_nil, filter_all; [reflexivity| |]; intros x Hx; specialize (F x Hx); destruct (N.eqb_spec (ch d x) c); auto; lia.
Qed.
Lemma filter_filter_comm : forall (A : Type) (f g : A -> bool) l, (forall x, In x l -> f x = true -> g x = true) -> filter f (filter g l) = filter f l.
Proof.
  induction l as [|x l IH]; intros H; [reflexivity|]. cbn [filter]. destruct (g x) eqn:G; cbn [filter].
  - destruct (f x); [f_equal|]; apply IH; intros; apply H; auto; right; auto.
  - rewrite IH by (intros; apply H; auto; right; auto). destruct (f x) eqn:Fx; [|reflexivity]. rewrite (H x (or_introl eq_refl) Fx) in G. discriminate.
Qed.
Lemma filter_length_le : forall (A : Type) (f : A -> bool) l, length (filter f l) <= length l.
Proof. induction l as [|x l IH]; cbn [filter length]; [lia|]. destruct (f x); cbn [length]; lia. Qed.
Lemma edge_groups_ok : forall fuel M d, length M <= fuel -> (forall k, In k M -> d < length k) -> mono d M ->
  exists es, edge_groups fuel M d = Ok es /\ NoDup (map fst es) /\ forall c ks, In (c, ks) es <-> ks = filter (fun k => (ch d k =? c)%N) M /\ ks <> [].
Proof.
  induction fuel as [|fuel IH]; intros M d L H S.
  { destruct M; [|cbn [length] in L; lia]. exists []. split; [reflexivity|]. split; [constructor|]. intros c ks. split; [intros []|]. intros [-> X]. cbn [filter] in X. congruence. }
  destruct M as [|k M]. { exists []. split; [reflexivity|]. split; [constructor|]. intros c ks. split; [intros []|]. intros [-> X]. cbn [filter] in X. congruence. }
  cbn [edge_groups]. rewrite char_at_ok by (apply H; left; reflexivity). cbn [bind]. set (c0 := ch d k). set (M0 := k :: M) in *.
  assert (G : forall x, In x M0 -> (c0 <= ch d x)%N). { intros x [<-|X]; [apply N.le_refl|]. unfold M0 in S. inversion S as [|a b S1 F]; subst. rewrite Forall_forall in F. apply F. exact X. }
  rewrite take_group_ok; auto. cbn [bind fst snd]. 
  destruct (IH (filter (fun k => negb (ch d k =? c0)%N) M0) d) as (es & -> & ND & I).
  - unfold M0. cbn [filter]. unfold c0 at 1. rewrite N.eqb_refl. cbn [negb]. pose proof (filter_length_le _ (fun k => negb (ch d k =? c0)%N) M). unfold M0 in L. cbn [length] in L. lia.
  - intros x Hx. apply filter_In in Hx. apply H. tauto.
  - apply SS_filter. exact S.
  - cbn [bind]. eexists. split; [reflexivity|]. split.
    + cbn [map fst]. constructor; auto. intros X. apply in_map_iff in X. destruct X as ([c ks] & X1 & X2). cbn [fst] in X1. subst c. apply I in X2. destruct X2 as [X2 X3]. apply X3. rewrite X2. apply filter_nil.
      intros x Hx. apply filter_In in Hx. destruct (ch d x =? c0)%N; [destruct Hx; discriminate|reflexivity].
    + intros c ks. cbn [In]. rewrite I. destruct (N.eq_dec c c0) as [->|Q].
      * split.
        -- intros [E|[E X]].
           ++ injection E as <-. split; auto. unfold M0. cbn [filter]. unfold c0. rewrite N.eqb_refl. discriminate.
           ++ exfalso. apply X. rewrite E. apply filter_nil. intros x Hx. apply filter_In in Hx. destruct (ch d x =? c0)%N; [destruct Hx; discriminate|reflexivity].
        -- intros [-> X]. left. reflexivity.
      * rewrite (filter_filter_comm _ (fun k => (ch d k =? c)%N) (fun k => negb (ch d k =? c0)%N)).
        -- split; [intros [E|E]; [congruence|exact E]|auto].
        -- intros x _ X. apply N.eqb_eq in X. destruct (N.eqb_spec (ch d x) c0); [congruence|reflexivity].
Qed.

Section Tree.
Variable K : list (list N).
Hypothesis HS : StronglySorted lex_lt K.
Hypothesis HB : forall k, In k K -> Forall (fun c => (0 < c < 256)%N) k.
Definition sub (p : list N) : list (list N) := filter (isp p) K.
Lemma sub_in : forall p k, In k (sub p) <-> In k K /\ exists r, k = p ++ r.
Proof. intros. unfold sub. rewrite filter_In, isp_spec. reflexivity. Qed.
Lemma lex_cancel : forall p a b, lex_lt (p ++ a) (p ++ b) <-> lex_lt a b.
Proof. clear. induction p as [|x p IH]; intros a b; cbn [app lex_lt]; [reflexivity|]. rewrite IH. split; [intros [H|[_ H]]; [lia|auto]|auto]. Qed.
Lemma lex_nil : forall a, ~ lex_lt a [].
Proof. clear. intros [|x a]; cbn [lex_lt]; auto. Qed.
Lemma nth_mid : forall p c (r : list N) d, nth (length p) (p ++ c :: r) d = c.
Proof. clear. intros. rewrite app_nth2, Nat.sub_diag by lia. reflexivity. Qed.
Lemma sub_step : forall p c M, (forall k, In k M -> exists x r, k = p ++ x :: r) -> filter (isp (p ++ [c])) M = filter (fun k => (ch (length p) k =? c)%N) M.
Proof.
  clear. intros p c M H. apply filter_ext_in. intros k Hk. destruct (H k Hk) as (x & r & ->). unfold ch. rewrite nth_mid. destruct (N.eqb_spec x c) as [->|Q].
  - apply isp_spec. exists r. rewrite <- app_assoc. reflexivity.
  - destruct (isp (p ++ [c]) (p ++ x :: r)) eqn:E; auto. apply isp_spec in E. destruct E as (s & E). rewrite <- app_assoc in E. apply app_inv_head in E. injection E as E _. congruence.
Qed.
Lemma mono_of : forall p M, (forall k, In k M -> exists x r, k = p ++ x :: r) -> StronglySorted lex_lt M -> mono (length p) M.
Proof.
  clear. intros p M H S. unfold mono. induction S as [|k M S IH F]; constructor.
  - apply IH. intros; apply H; right; auto.
  - rewrite Forall_forall in *. intros y Hy. specialize (F y Hy). destruct (H k (or_introl eq_refl)) as (a & r & ->). destruct (H y (or_intror Hy)) as (b & s & ->). unfold ch. rewrite !nth_mid. rewrite lex_cancel in F. cbn [lex_lt] in F. lia.
Qed.
(** the edges out of the node for [p]: the end of a key, or a byte *)
Definition edgeP (p : list N) (c : N) : Prop := (c = 0%N /\ In p K) \/ (c <> 0%N /\ sub (p ++ [c]) <> []).
Definition kids (p : list N) (c : N) : list (list N) := if (c =? 0)%N then [] else sub (p ++ [c]).
Lemma nonzero_in : forall p c k r, In k K -> k = p ++ c :: r -> (0 < c < 256)%N.
Proof using HB. intros p c k r H ->. apply HB in H. rewrite Forall_forall in H. apply H. apply in_or_app. right. left. reflexivity. Qed.
Lemma edgeP_byte : forall p c, edgeP p c -> (c < 256)%N.
Proof using HB.
  intros p c [[-> _]|[_ H]]; [reflexivity|]. destruct (sub (p ++ [c])) as [|k ks] eqn:E; [congruence|]. assert (X : In k (sub (p ++ [c]))) by (rewrite E; left; reflexivity).
  apply sub_in in X. destruct X as (X & r & Y). rewrite <- app_assoc in Y. apply (nonzero_in p c k r X Y).
Qed.
Theorem explore_ok : forall p, sub p <> [] -> exists es, explore (sub p) (length p) = Ok es /\ NoDup (map fst es) /\ forall c ks, In (c, ks) es <-> edgeP p c /\ ks = kids p c.
Proof using HS HB.
  intros p NE. assert (Ss : StronglySorted lex_lt (sub p)) by (apply SS_filter; exact HS).
  assert (Form : forall k, In k (sub p) -> exists r, k = p ++ r) by (intros k H; apply sub_in in H; tauto).
  assert (SUB : forall c, sub (p ++ [c]) = filter (isp (p ++ [c])) (sub p)).
  { intros c. unfold sub. symmetry. apply filter_filter_comm. intros k _ H. apply isp_spec in H. destruct H as (r & ->). apply isp_spec. exists ([c] ++ r). rewrite app_assoc. reflexivity. }
  assert (INP : In p K <-> In p (sub p)). { rewrite sub_in. split; [intros H; split; auto; exists []; rewrite app_nil_r; auto|tauto]. }
  assert (NZ : forall k c r, In k (sub p) -> k = p ++ c :: r -> c <> 0%N). { intros k c r H E. apply sub_in in H. destruct H as [H _]. pose proof (nonzero_in p c k r H E). lia. }
  unfold explore. destruct (sub p) as [|k rest] eqn:E; [congruence|]. destruct (Form k (or_introl eq_refl)) as (r & ->). inversion Ss as [|x y S1 F]; subst x y. rewrite Forall_forall in F.
  destruct r as [|c0 r].
  - rewrite app_nil_r in *. rewrite Nat.eqb_refl.
    assert (Rest : forall k, In k rest -> exists x s, k = p ++ x :: s).
    { intros k Hk. specialize (F k Hk). destruct (Form k (or_intror Hk)) as ([|x s] & ->); [|eauto]. exfalso. rewrite app_nil_r in F. exact (lex_lt_irrefl _ F). }
    assert (SK : skip_ended rest (length p) = rest).
    { destruct rest as [|k rest']; [reflexivity|]. cbn [skip_ended]. destruct (Rest k (or_introl eq_refl)) as (x & s & ->). rewrite app_length. cbn [length]. destruct (Nat.eqb_spec (length p + S (length s)) (length p)); [lia|reflexivity]. }
    rewrite SK. destruct (edge_groups_ok (length rest) rest (length p)) as (es & -> & ND & I).
    + lia.
    + intros k Hk. destruct (Rest k Hk) as (x & s & ->). rewrite app_length. cbn [length]. lia.
    + apply mono_of; auto.
    + cbn [bind]. eexists. split; [reflexivity|].
      assert (Q : forall c, filter (isp (p ++ [c])) (p :: rest) = filter (fun k => (ch (length p) k =? c)%N) rest).
      { intros c. cbn [filter]. assert (Z : isp (p ++ [c]) p = false). { destruct (isp (p ++ [c]) p) eqn:Z; auto. apply isp_spec in Z. destruct Z as (s & Z). apply (f_equal (@length N)) in Z. rewrite !app_length in Z. cbn [length] in Z. lia. }
        rewrite Z. apply sub_step. exact Rest. }
      assert (NZ' : forall c, filter (fun k => (ch (length p) k =? c)%N) rest <> [] -> c <> 0%N).
      { intros c H. destruct (filter _ rest) as [|k ks] eqn:Fk in H; [congruence|]. assert (X : In k (filter (fun k => (ch (length p) k =? c)%N) rest)) by (rewrite Fk; left; reflexivity).
        apply filter_In in X. destruct X as [X1 X2]. destruct (Rest k X1) as (x & s & ->). unfold ch in X2. rewrite nth_mid in X2. apply N.eqb_eq in X2. subst x. eapply NZ; [right; exact X1|reflexivity]. }
      split.
      * cbn [map fst]. constructor; auto. intros X. apply in_map_iff in X. destruct X as ([c ks] & X1 & X2). cbn [fst] in X1. subst c. apply I in X2. destruct X2 as [X2 X3]. rewrite X2 in X3. apply NZ' in X3. congruence.
      * intros c ks. cbn [In]. rewrite I. unfold edgeP, kids. rewrite SUB, Q. split.
        -- intros [X|[X1 X2]].
           ++ injection X as <- <-. split; [|reflexivity]. left. split; auto. apply INP. left. reflexivity.
           ++ rewrite X1 in X2. pose proof (NZ' c X2). split; [right; auto|]. destruct (N.eqb_spec c 0); [congruence|exact X1].
        -- intros [[[-> X]|[X1 X2]] ->]; [left; reflexivity|]. right. destruct (N.eqb_spec c 0); [congruence|auto].
  - rewrite app_length. cbn [length]. destruct (Nat.eqb_spec (length p + S (length r)) (length p)); [lia|].
    assert (Rest : forall k, In k ((p ++ c0 :: r) :: rest) -> exists x s, k = p ++ x :: s).
    { intros k [<-|Hk]; [eauto|]. specialize (F k Hk). destruct (Form k (or_intror Hk)) as ([|x s] & ->); [|eauto]. exfalso. rewrite app_nil_r in F. rewrite <- (app_nil_r p) in F at 2. apply lex_cancel in F. exact (lex_nil _ F). }
    assert (NP : ~ In p K). { intros H. apply INP in H. destruct (Rest p H) as (x & s & X). apply (f_equal (@length N)) in X. rewrite app_length in X. cbn [length] in X. lia. }
    destruct (edge_groups_ok (length ((p ++ c0 :: r) :: rest)) ((p ++ c0 :: r) :: rest) (length p)) as (es & EQ & ND & I).
    + lia.
    + intros k Hk. destruct (Rest k Hk) as (x & s & ->). rewrite app_length. cbn [length]. lia.
    + apply mono_of; auto.
    + cbn [length] in EQ. exists es. split; [exact EQ|]. split; auto. intros c ks. rewrite I. unfold edgeP, kids. rewrite SUB, (sub_step p c _ Rest). split.
      * intros [X1 X2]. assert (NC : c <> 0%N).
        { destruct ks as [|k ks]; [congruence|]. assert (X : In k (filter (fun k => (ch (length p) k =? c)%N) ((p ++ c0 :: r) :: rest))) by (rewrite <- X1; left; reflexivity).
          apply filter_In in X. destruct X as [Y1 Y2]. destruct (Rest k Y1) as (x & s & ->). unfold ch in Y2. rewrite nth_mid in Y2. apply N.eqb_eq in Y2. subst x. eapply NZ; [exact Y1|reflexivity]. }
        split; [right; split; auto; congruence|]. destruct (N.eqb_spec c 0); [congruence|exact X1].
      * intros [[[-> X]|[X1 X2]] ->]; [contradiction|]. destruct (N.eqb_spec c 0); [congruence|auto].
Qed.
End Tree.
