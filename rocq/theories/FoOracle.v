(** The edges inserted while the factor oracle is built, and what the finished automaton accepts. *)
From Coq Require Import List NArith ZArith Arith Bool Lia Permutation.
From Verif Require Import Base FoModel FoRing FoFree FoArray.
Import ListNotations.
Local Open Scope nat_scope.

Section Oracle.
Variable ck : list N.
Hypothesis Hck : forall i, i < length ck -> (0 < nth i ck 0 < 256)%N.
Let m := length ck.
Let chk := chk ck.
Let valid := valid ck.
Let sigma := length (nodup N.eq_dec ck).

(** an edge of the automaton; the edges along the text are not stored *)
Definition D (log : list (nat * nat)) (s t : nat) : Prop := (t = s + 1 /\ t <= m) \/ In (s, t) log.
(** the chain of suffix links *)
Inductive sup (lrs : list nat) : nat -> nat -> Prop :=
| sup_refl : forall j, sup lrs j j
| sup_step : forall q j, 1 <= j -> sup lrs q (nth j lrs 0) -> sup lrs q j.
Inductive depth (lrs : list nat) : nat -> nat -> Prop :=
| depth_0 : depth lrs 0 0
| depth_S : forall j d, 1 <= j -> depth lrs (nth j lrs 0) d -> depth lrs j (S d).
Lemma sup_trans : forall lrs a b c, sup lrs a b -> sup lrs b c -> sup lrs a c.
Proof. intros lrs a b c H1 H2. induction H2; auto. apply sup_step; auto. Qed.
Lemma sup_ext : forall lrs lrs' i, (forall j, 1 <= j <= i -> nth j lrs' 0 = nth j lrs 0) -> (forall j, 1 <= j <= i -> nth j lrs 0 < j) -> forall q j, sup lrs q j -> j <= i -> sup lrs' q j.
Proof. intros lrs lrs' i H Hl q j S. induction S as [|q j Hj S IH]; intros L; [constructor|]. apply sup_step; auto. rewrite H by lia. apply IH. specialize (Hl j ltac:(lia)). lia. Qed.
Lemma depth_ext : forall lrs lrs' i, (forall j, 1 <= j <= i -> nth j lrs' 0 = nth j lrs 0) -> (forall j, 1 <= j <= i -> nth j lrs 0 < j) -> forall j d, depth lrs j d -> j <= i -> depth lrs' j d.
Proof. intros lrs lrs' i H Hl j d S. induction S as [|j d Hj S IH]; intros L; [constructor|]. apply depth_S; auto. rewrite H by lia. apply IH. specialize (Hl j ltac:(lia)). lia. Qed.
Lemma sup_le : forall lrs i, (forall j, 1 <= j <= i -> nth j lrs 0 < j) -> forall q j, sup lrs q j -> j <= i -> q <= j.
Proof. intros lrs i Hl q j S. induction S as [|q j Hj S IH]; intros L; auto. specialize (Hl j ltac:(lia)). specialize (IH ltac:(lia)). lia. Qed.
Lemma sup_zero : forall lrs i, (forall j, 1 <= j <= i -> nth j lrs 0 < j) -> forall j, j <= i -> sup lrs 0 j.
Proof.
  intros lrs i Hl j. induction j as [j IH] using lt_wf_ind. intros L. destruct j as [|j]; [constructor|]. apply sup_step; [lia|]. specialize (Hl (S j) ltac:(lia)). apply IH; lia.
Qed.
Lemma depth_ex : forall lrs i, (forall j, 1 <= j <= i -> nth j lrs 0 < j) -> forall j, j <= i -> exists d, depth lrs j d.
Proof.
  intros lrs i Hl j. induction j as [j IH] using lt_wf_ind. intros L. destruct j as [|j]; [exists 0; constructor|]. pose proof (Hl (S j) ltac:(lia)). destruct (IH (nth (S j) lrs 0)) as (d & Hd); [lia|lia|]. exists (S d). apply depth_S; [lia|auto].
Qed.
Lemma depth_fun : forall lrs j d, depth lrs j d -> forall d', depth lrs j d' -> d = d'.
Proof. intros lrs j d H. induction H as [|j d Hj H IH]; intros d' H'; inversion H'; subst; auto; try lia. Qed.
Lemma sup_depth : forall lrs q j, sup lrs q j -> forall d e, depth lrs q d -> depth lrs j e -> q <> j -> d < e.
Proof.
  intros lrs q j S. induction S as [|q j Hj S IH]; intros d e Hd He N; [congruence|]. inversion He as [|? e' ? He']; subst; [lia|]. destruct (Nat.eq_dec q (nth j lrs 0)) as [->|Nq].
  - rewrite (depth_fun _ _ _ Hd _ He'). lia.
  - specialize (IH d e' Hd He' Nq). lia.
Qed.

(** what holds of the edges alone, whatever state the arrays are in *)
Record Log (i : nat) (log : list (nat * nat)) : Prop := {
  lg_edge : forall s t, In (s, t) log -> s + 1 < t <= i /\ chk (s + 1) <> chk t;
  lg_det : forall s t t', In (s, t) log -> In (s, t') log -> chk t = chk t' -> t = t';
  lg_nodup : NoDup log;
  lg_cost : cost log <= length log * (sigma - 1) }.
(** after the letters before i *)
Record Inv (i : nat) (lrs : list nat) (log : list (nat * nat)) : Prop := {
  iv_len : length lrs = m + 1;
  iv_lt : forall j, 1 <= j <= i -> nth j lrs 0 < j;
  iv_log : Log i log;
  iv_B : forall s t, D log s t -> t <= i -> forall q, sup lrs q s -> exists t', D log q t' /\ t' <= i /\ chk t' = chk t /\ sup lrs t' t;
  iv_depth : forall s t ds dt, D log s t -> t <= i -> depth lrs s ds -> depth lrs t dt -> dt <= ds + 1;
  iv_count : forall d, depth lrs i d -> length log + d <= i;
  iv_src : forall s t, D log s t -> t <= i -> sup lrs s (t - 1);
  iv_link : forall j, 1 <= j <= i -> exists k, D log k j /\ (forall s, D log s j -> sup lrs k s) /\ ((k = 0 /\ nth j lrs 0 = 0) \/ (1 <= k /\ D log (nth k lrs 0) (nth j lrs 0) /\ chk (nth j lrs 0) = chk j)) }.
(** the walk along the suffix links for the letter i, at state k *)
Record Walk (i : nat) (lrs : list nat) (log0 log : list (nat * nat)) (k : nat) : Prop := {
  wk_log : Log (i + 1) log;
  wk_old : forall s t, In (s, t) log <-> In (s, t) log0 \/ (t = i + 1 /\ In (s, t) log);
  wk_new : forall s, In (s, i + 1) log -> sup lrs s i /\ s < i /\ (k < s \/ k = i + 1) /\ (k <= i -> sup lrs k s);
  wk_k : k = i + 1 \/ (k < i /\ sup lrs k i);
  wk_all : forall q, sup lrs q i -> q = i \/ (k <= i /\ sup lrs q k) \/ In (q, i + 1) log;
  wk_count : forall d, depth lrs k d -> k <= i -> length log + d + 1 <= i;
  wk_end : k = i + 1 -> length log <= i;
  wk_prev : exists k0, k0 <= i /\ D log k0 (i + 1) /\ nth k0 lrs 0 = k /\ forall s, D log s (i + 1) -> sup lrs k0 s }.

Lemma Log_add : forall i log s, Log (i + 1) log -> i < m -> s < i -> (forall t, In (s, t) log -> chk t <> chk (i + 1)) -> chk (s + 1) <> chk (i + 1) -> Log (i + 1) ((s, i + 1) :: log).
Proof.
  intros i log s [Ed Dt Nd Co] Hi Hs Hn Hc. constructor.
  - intros s' t [E|I]; [injection E as <- <-; split; [lia|auto]|]. apply Ed; auto.
  - intros s' t t' [E|I] [E'|I']; [congruence| | |eapply Dt; eauto].
    + injection E as <- <-. intros C. exfalso. apply (Hn t' I'). auto.
    + injection E' as <- <-. intros C. exfalso. apply (Hn t I). auto.
  - constructor; auto. intros I. apply (Hn _ I). auto.
  - cbn [cost length fst]. assert (count_src s log + 2 <= sigma); [|lia].
    set (fl := filter (fun e : nat * nat => fst e =? s) log). change (count_src s log) with (length fl).
    assert (G : NoDup (chk (s + 1) :: chk (i + 1) :: map (fun e => chk (snd e)) fl)).
    { assert (Fi : forall e, In e fl -> exists t, e = (s, t) /\ In (s, t) log) by (intros (a & t) Ie; apply filter_In in Ie; cbn [fst] in Ie; destruct Ie as (Ie & Es); apply Nat.eqb_eq in Es; subst; eauto).
      constructor; [|constructor].
      - intros [C|C]; [congruence|]. apply in_map_iff in C. destruct C as (e & C & Ie). destruct (Fi e Ie) as (t & -> & It). apply (Ed s t It). auto.
      - intros C. apply in_map_iff in C. destruct C as (e & C & Ie). destruct (Fi e Ie) as (t & -> & It). apply (Hn t It). auto.
      - assert (Nf : NoDup fl) by (apply NoDup_filter; auto). clearbody fl. revert Fi Nf. induction fl as [|e fl IH]; intros Fi Nf; [constructor|]. apply NoDup_cons_iff in Nf. simpl. constructor.
        + intros C. apply in_map_iff in C. destruct C as (e' & C & Ie). destruct (Fi e (or_introl eq_refl)) as (t & -> & It). destruct (Fi e' (or_intror Ie)) as (t' & -> & It'). cbn [snd] in C. assert (t' = t) by (eapply Dt; eauto). subst. tauto.
        + apply IH; [intros e' Ie; apply Fi; now right|tauto]. }
    assert (I : incl (chk (s + 1) :: chk (i + 1) :: map (fun e => chk (snd e)) fl) (nodup N.eq_dec ck)).
    { assert (V : forall t, 1 <= t <= m -> In (chk t) (nodup N.eq_dec ck)) by (intros t Ht; apply nodup_In; apply nth_In; fold m; lia).
      intros c [<-|[<-|C]]; [apply V; lia|apply V; lia|]. apply in_map_iff in C. destruct C as ((a & t) & <- & Ie). apply filter_In in Ie. destruct Ie as (Ie & _). apply Ed in Ie. apply V. cbn [snd]. lia. }
    apply NoDup_incl_length in I; auto. cbn [length] in I. rewrite map_length in I. fold sigma in I. lia.
Qed.
Lemma walk_start : forall i lrs log, Inv i lrs log -> i < m -> Walk i (upd lrs 0 (i + 1)) log log (nth i (upd lrs 0 (i + 1)) 0).
Proof.
  intros i lrs log [Il Ilt [Ed Dt Nd Co] IB Id Ic Is Ik] Hi.
  assert (Ex : forall j, 1 <= j <= i -> nth j (upd lrs 0 (i + 1)) 0 = nth j lrs 0) by (intros j Hj; rewrite nth_upd; rewrite (proj2 (Nat.eqb_neq j 0)) by lia; reflexivity).
  assert (Ex' : forall j, 1 <= j <= i -> nth j lrs 0 = nth j (upd lrs 0 (i + 1)) 0) by (intros; symmetry; apply Ex; auto).
  assert (Ilt' : forall j, 1 <= j <= i -> nth j (upd lrs 0 (i + 1)) 0 < j) by (intros; rewrite Ex; auto).
  set (L := upd lrs 0 (i + 1)) in *.
  assert (No : forall s, ~ In (s, i + 1) log) by (intros s I; apply Ed in I; lia).
  constructor.
  - constructor; auto. intros s t I. apply Ed in I as I'. split; [lia|tauto].
  - intros s t. split; [auto|]. intros [I|(E & I)]; auto.
  - intros s I. now apply No in I.
  - destruct i as [|i]; [left; unfold L; rewrite nth_upd; cbn [Nat.eqb andb]; rewrite (proj2 (Nat.ltb_lt _ _)) by lia; reflexivity|]. right. split; [apply Ilt'; lia|]. apply sup_step; [lia|constructor].
  - intros q Sq. inversion Sq as [|? ? Hj Sq']; subst; auto. right. left. split; auto. specialize (Ilt' i ltac:(lia)). lia.
  - intros d Hd Lk. destruct i as [|i]; [exfalso; revert Lk; unfold L; rewrite nth_upd; cbn [Nat.eqb andb]; rewrite (proj2 (Nat.ltb_lt _ _)) by lia; lia|].
    assert (Dp : depth L (S i) (S d)) by (apply depth_S; [lia|auto]). apply (depth_ext _ lrs (S i) Ex' Ilt') in Dp; [|lia]. specialize (Ic _ Dp). lia.
  - intros _. destruct (depth_ex lrs i Ilt i (le_n i)) as (d & Hd). specialize (Ic d Hd). lia.
  - exists i. split; auto. split; [left; lia|]. split; auto. intros s [(E & _)|I]; [|now apply No in I]. replace s with i by lia. constructor.
Qed.
(** one insertion *)
Lemma walk_step : forall i lrs log0 log k, Walk i lrs log0 log k -> i < m -> k <= i -> (forall j, 1 <= j <= i -> nth j lrs 0 < j) -> nth 0 lrs 0 = i + 1 ->
  (forall t, In (k, t) log -> chk t <> chk (i + 1)) -> chk (k + 1) <> chk (i + 1) -> Walk i lrs log0 ((k, i + 1) :: log) (nth k lrs 0).
Proof.
  intros i lrs log0 log k [Wl Wo Wn Wk Wa Wc We Wp] Hi Lk Hlt H0 Hn Hc. destruct Wk as [Wk|(Wk & Ws)]; [lia|].
  assert (Kn : (k = 0 /\ nth k lrs 0 = i + 1) \/ (1 <= k /\ nth k lrs 0 < k /\ sup lrs (nth k lrs 0) k)).
  { destruct k as [|k]; [left; auto|]. right. split; [lia|]. split; [apply Hlt; lia|]. apply sup_step; [lia|constructor]. }
  constructor.
  - apply Log_add; auto.
  - intros s t. simpl. split.
    + intros [E|I]; [injection E as <- <-; auto|]. apply Wo in I as I'. tauto.
    + intros [I|(E & I)]; [right; apply Wo; auto|auto].
  - intros s [E|I].
    + injection E as <-. split; auto. split; [lia|]. destruct Kn as [(K1 & K2)|(K1 & K2 & K3)]; [rewrite K2; split; [lia|lia]|]. split; [lia|auto].
    + destruct (Wn s I) as (W1 & W2 & W3 & W4). split; auto. split; auto. destruct Kn as [(K1 & K2)|(K1 & K2 & K3)]; [rewrite K2; split; lia|]. split; [lia|]. intros _. eapply sup_trans; eauto.
  - destruct Kn as [(K1 & K2)|(K1 & K2 & K3)]; auto. right. split; [lia|]. eapply sup_trans; eauto.
  - intros q Sq. destruct (Wa q Sq) as [E|[(E1 & E2)|E]]; auto; [|right; right; now right]. inversion E2 as [|? ? Hj E2']; subst; [right; right; now left|]. right. left. split; auto. specialize (Hlt k ltac:(lia)). lia.
  - intros d Hd Ln. destruct Kn as [(K1 & K2)|(K1 & K2 & K3)]; [lia|]. assert (Dk : depth lrs k (S d)) by (apply depth_S; auto). specialize (Wc _ Dk Lk). cbn [length]. lia.
  - intros En. destruct Kn as [(K1 & K2)|(K1 & K2 & K3)]; [|lia]. subst k. specialize (Wc 0 (depth_0 _) Lk). cbn [length]. lia.
  - exists k. split; auto. split; [right; now left|]. split; auto. intros s [(E & L)|[E|I]].
    + replace s with i by lia. auto.
    + injection E as <-. constructor.
    + apply Wn; auto.
Qed.
(** the walk ended with the suffix link r of the new state *)
Lemma walk_end : forall i lrs log0 log k r lrs', Inv i lrs log0 -> Walk i (upd lrs 0 (i + 1)) log0 log k -> i < m ->
  (k = i + 1 /\ r = 0) \/ (k <= i /\ D log k r /\ chk r = chk (i + 1)) -> lrs' = upd (upd lrs 0 (i + 1)) (i + 1) r -> Inv (i + 1) lrs' log.
Proof.
  intros i lrs log0 log k r lrs' [Il Ilt Ilg IB Id Ic Is Ik] [Wl Wo Wn Wk Wa Wc We Wp] Hi Hr E'.
  assert (Ex : forall j, 1 <= j <= i -> nth j (upd lrs 0 (i + 1)) 0 = nth j lrs 0) by (intros j Hj; rewrite nth_upd; rewrite (proj2 (Nat.eqb_neq j 0)) by lia; reflexivity).
  set (L := upd lrs 0 (i + 1)) in *. assert (Ll : length L = m + 1) by (unfold L; rewrite upd_length; auto).
  assert (Ilt' : forall j, 1 <= j <= i -> nth j L 0 < j) by (intros; rewrite Ex; auto).
  assert (Ey : forall j, 1 <= j <= i -> nth j lrs' 0 = nth j L 0) by (intros j Hj; rewrite E', nth_upd; rewrite (proj2 (Nat.eqb_neq j _)) by lia; reflexivity).
  assert (En : nth (i + 1) lrs' 0 = r) by (rewrite E', nth_upd, Nat.eqb_refl, (proj2 (Nat.ltb_lt _ _)) by lia; reflexivity).
  assert (Ez : forall j, 1 <= j <= i -> nth j lrs' 0 = nth j lrs 0) by (intros; rewrite Ey; auto).
  assert (Ez' : forall j, 1 <= j <= i -> nth j lrs 0 = nth j lrs' 0) by (intros; rewrite Ez; auto).
  assert (Hr' : r <= i).
  { destruct Hr as [(_ & ->)|(K & [(-> & _)|I] & _)]; [lia|lia|]. destruct Wk as [->|(Wk & _)]; [lia|]. apply Wo in I as I'. destruct I' as [I'|(-> & _)]; [apply (lg_edge _ _ Ilg) in I'; lia|]. apply Wn in I. lia. }
  assert (Lt2 : forall j, 1 <= j <= i + 1 -> nth j lrs' 0 < j) by (intros j Hj; destruct (Nat.eq_dec j (i + 1)) as [->|]; [rewrite En; lia|rewrite Ez by lia; apply Ilt; lia]).
  assert (Lt3 : forall j, 1 <= j <= i -> nth j lrs' 0 < j) by (intros; apply Lt2; lia).
  assert (So : forall q j, sup lrs' q j -> j <= i -> sup lrs q j) by (apply (sup_ext lrs' lrs i); auto).
  assert (On : forall q j, sup lrs q j -> j <= i -> sup lrs' q j) by (apply (sup_ext lrs lrs' i); auto).
  assert (Oy : forall q j, sup lrs' q j -> j <= i -> sup L q j) by (apply (sup_ext lrs' L i); auto; intros; rewrite Ey; auto).
  assert (Yn : forall q j, sup L q j -> j <= i -> sup lrs' q j) by (apply (sup_ext L lrs' i); auto).
  assert (Do : forall j d, depth lrs' j d -> j <= i -> depth lrs j d) by (apply (depth_ext lrs' lrs i); auto).
  assert (Dy : forall j d, depth lrs' j d -> j <= i -> depth L j d) by (apply (depth_ext lrs' L i); auto; intros; rewrite Ey; auto).
  assert (Dold : forall s t, D log s t -> t <= i -> D log0 s t) by (intros s t [X|X] Lt; [now left|right]; apply Wo in X; destruct X as [|(-> & _)]; [auto|lia]).
  assert (Dnew : forall s t, D log0 s t -> D log s t) by (intros s t [X|X]; [now left|right]; apply Wo; auto).
  (* sources of edges into the new state *)
  assert (Src : forall s, D log s (i + 1) -> sup L s i /\ s <= i /\ (k <= i -> k < s /\ sup L k s)).
  { intros s [(X & _)|X].
    - assert (s = i) by lia. subst s. split; [constructor|]. split; auto. intros Lk. destruct Wk as [->|(Wk & Ws)]; [lia|]. split; [lia|auto].
    - destruct (Wn s X) as (W1 & W2 & W3 & W4). split; auto. split; [lia|]. intros Lk. split; [lia|auto]. }
  constructor; auto.
  - rewrite E', upd_length. auto.
  - intros s t Dst Lt q Sq. destruct (Nat.eq_dec t (i + 1)) as [->|Nt].
    + destruct (Src s Dst) as (S1 & S2 & S3). apply Oy in Sq; [|lia]. pose proof (sup_trans _ _ _ _ Sq S1) as Sqi. destruct (Wa q Sqi) as [->|[(K1 & K2)|K1]].
      * exists (i + 1). split; [left; lia|]. split; auto. split; auto. constructor.
      * destruct Hr as [(-> & _)|(_ & Dr & Cr)]; [lia|]. destruct (IB k r (Dold _ _ Dr Hr') Hr' q) as (t' & T1 & T2 & T3 & T4); [apply So; [apply Yn; auto|lia]|].
        exists t'. split; [auto|]. split; [lia|]. split; [congruence|]. apply sup_step; [lia|]. rewrite En. apply On; auto.
      * exists (i + 1). split; [right; auto|]. split; auto. split; auto. constructor.
    + assert (Lt' : t <= i) by lia. assert (Ls : s <= i) by (destruct Dst as [(-> & _)|X]; [lia|apply (lg_edge _ _ Wl) in X; lia]). destruct (IB s t (Dold _ _ Dst Lt') Lt' q) as (t' & T1 & T2 & T3 & T4); [apply So; auto|]. exists t'. split; auto. split; [lia|]. split; auto.
  - intros s t ds dt Dst Lt Hs Ht. destruct (Nat.eq_dec t (i + 1)) as [->|Nt].
    + destruct (Src s Dst) as (S1 & S2 & S3). inversion Ht as [|? d' ? Ht']; subst; [lia|]. match type of Ht' with depth _ (nth _ ?l _) _ => change l with (upd L (i + 1) r) in Ht' end. set (lrs' := upd L (i + 1) r) in *. rewrite En in Ht'. destruct Hr as [(_ & ->)|(Lk & Dr & Cr)].
      * inversion Ht'; subst; lia.
      * destruct (S3 Lk) as (K1 & K2). destruct (depth_ex lrs' i Lt3 k Lk) as (dk & Hdk). pose proof (Id k r dk d' (Dold _ _ Dr Hr') Hr' (Do _ _ Hdk Lk) (Do _ _ Ht' Hr')) as B1. pose proof (sup_depth lrs' k s (Yn _ _ K2 S2) dk ds Hdk Hs ltac:(lia)). lia.
    + assert (Lt' : t <= i) by lia. assert (Ls : s <= i) by (destruct Dst as [(-> & _)|X]; [lia|apply (lg_edge _ _ Wl) in X; lia]). apply (Id s t); auto.
  - intros d Hd. inversion Hd as [|? d' ? Hd']; [lia|]. subst d. rewrite En in Hd'. destruct Hr as [(Ek & Er)|(Lk & Dr & Cr)].
    + rewrite Er in Hd'. inversion Hd'; [|lia]. subst. specialize (We eq_refl). lia.
    + destruct (depth_ex lrs' i Lt3 k Lk) as (dk & Hdk). pose proof (Id k r dk d' (Dold _ _ Dr Hr') Hr' (Do _ _ Hdk Lk) (Do _ _ Hd' Hr')) as B1. specialize (Wc dk (Dy _ _ Hdk Lk) Lk). lia.
  - intros s t Dst Lt. destruct (Nat.eq_dec t (i + 1)) as [->|Nt].
    + destruct (Src s Dst) as (S1 & S2 & _). replace (i + 1 - 1) with i by lia. apply Yn; auto.
    + apply On; [|lia]. apply Is; [apply Dold; auto; lia|lia].
  - intros j Hj. destruct (Nat.eq_dec j (i + 1)) as [->|Nj].
    + destruct Wp as (k0 & P1 & P2 & P3 & P4). exists k0. split; auto. split; [intros s Ds; apply Yn; [apply P4; auto|apply Src in Ds; lia]|]. rewrite En. destruct Hr as [(-> & ->)|(Lk & Dr & Cr)].
      * left. split; auto. destruct k0 as [|k0]; auto. specialize (Ilt' (S k0) ltac:(lia)). lia.
      * right. destruct k0 as [|k0]; [exfalso; revert P3; unfold L; rewrite nth_upd; cbn [Nat.eqb andb]; rewrite (proj2 (Nat.ltb_lt _ _)) by lia; lia|]. split; [lia|]. rewrite Ey, P3 by lia. auto.
    + destruct (Ik j ltac:(lia)) as (k0 & P1 & P2 & P3). assert (Dl : forall s, D log s j -> D log0 s j) by (intros s Ds; apply Dold; auto; lia). assert (Lk : forall s, D log0 s j -> s < j) by (intros s [X|X]; [lia|apply (lg_edge _ _ Ilg) in X; lia]). exists k0. split; auto. split; [intros s Ds; apply Dl in Ds; apply Lk in Ds as Ls; apply On; auto; lia|]. apply Lk in P1 as L0. rewrite Ez by lia. destruct P3 as [P3|(P3 & P4 & P5)]; [left; auto|right]. rewrite Ez by lia. auto.
Qed.
(** ** the loops *)
(** why a build can go on for ever: at some insertion the list of free slots is empty, or longer than the fuel *)
Definition stuck (q0 fuel : nat) : Prop := exists st q R log, Arr ck st q R log /\ cost log <= length log * (sigma - 1) /\ length log + 2 <= m /\ q0 <= q <= q0 + length log /\ (R = [] \/ fuel <= length R).
Lemma walk_ok : forall q0 fuel i lrs log0, i < m -> (forall j, 1 <= j <= i -> nth j lrs 0 < j) -> nth 0 lrs 0 = i + 1 -> length lrs = m + 1 ->
  forall steps st q R log k, Arr ck st q R log -> Walk i lrs log0 log k -> 1 <= steps -> (k <= i -> k + 2 <= steps) -> q0 <= q <= q0 + length log ->
  (fo_walk steps fuel lrs st k (i + 1) = Fuel /\ stuck q0 fuel) \/
  exists st' k' q' R' log' r, fo_walk steps fuel lrs st k (i + 1) = Ok (st', k') /\ Arr ck st' q' R' log' /\ Walk i lrs log0 log' k' /\ q0 <= q' <= q0 + length log' /\
    (if k' =? i + 1 then Ok 0 else fo_transition st' k' (i + 1)) = Ok r /\ ((k' = i + 1 /\ r = 0) \/ (k' <= i /\ D log' k' r /\ chk r = chk (i + 1))).
Proof.
  intros q0 fuel i lrs log0 Hi Hlt H0 Hl. induction steps as [|steps IH]; intros st q R log k A W Hs Hk Hq; [lia|]. cbn [fo_walk].
  destruct (Nat.ltb_spec k (i + 1)) as [Lk|Lk].
  - assert (Vn : FoFree.valid ck (i + 1)) by (split; fold m; lia). assert (Km : k < length ck) by (fold m; lia).
    destruct (transition_ok ck Hck st q R log k (i + 1) A Km Vn) as (r & Er & Hr). rewrite Er. cbn [bind].
    destruct (Nat.eqb_spec r 0) as [->|Nr].
    + assert (Hr' : chk (k + 1) <> chk (i + 1) /\ forall t, In (k, t) log -> chk t <> chk (i + 1)).
      { destruct Hr as [(_ & C)|(Hc & [(I & _)|(_ & I)])]; [lia| |split; auto]. destruct (ar_edge _ _ _ _ _ A _ _ I) as (C & _). lia. }
      clear Hr. destruct Hr' as (Hc & Hn). destruct (insert_ok ck Hck fuel st q R log k (i + 1) A ltac:(lia) Vn Hn) as [(E & C)|(st' & q' & R' & E & A' & Q')]; rewrite E; cbn [bind].
      * left. split; auto. exists st, q, R, log. split; auto. split; [apply (lg_cost _ _ (wk_log _ _ _ _ _ W))|]. split; [|auto]. destruct (depth_ex lrs i Hlt k ltac:(lia)) as (d & Hd). pose proof (wk_count _ _ _ _ _ W d Hd ltac:(lia)). lia.
      * rewrite (lget_nth _ lrs k 0) by lia. cbn [bind]. apply (IH st' q' R' ((k, i + 1) :: log)); auto; [|lia| |cbn [length]; lia].
        -- apply walk_step; auto. lia.
        -- intros Ln. destruct k as [|k]; [lia|]. specialize (Hlt (S k) ltac:(lia)). lia.
    + right. exists st, k, q, R, log, r. split; auto. split; auto. split; auto. split; auto. rewrite (proj2 (Nat.eqb_neq _ _)) by lia. split; auto. right. split; [lia|].
      destruct Hr as [(Hc & E)|(Hc & [(I & E)|(C & _)])]; [|split; [now right|auto]|congruence]. subst r. split; [left; lia|auto].
  - destruct (wk_k _ _ _ _ _ W) as [Ek|(C & _)]; [|lia]. right. exists st, k, q, R, log, 0. split; auto. split; auto. split; auto. split; auto. rewrite (proj2 (Nat.eqb_eq _ _)) by auto. auto.
Qed.
Lemma letter_ok : forall q0 fuel i lrs st q R log, i < m -> Arr ck st q R log -> Inv i lrs log -> q0 <= q <= q0 + length log ->
  (fo_letter fuel (st, lrs) i = Fuel /\ stuck q0 fuel) \/
  exists st' lrs' q' R' log', fo_letter fuel (st, lrs) i = Ok (st', lrs') /\ Arr ck st' q' R' log' /\ Inv (i + 1) lrs' log' /\ q0 <= q' <= q0 + length log'.
Proof.
  intros q0 fuel i lrs st q R log Hi A I Hq. pose proof (iv_len _ _ _ I) as Ll. pose proof (walk_start i lrs log I Hi) as W. unfold fo_letter. rewrite lset_Ok by lia. cbn [bind]. set (L := upd lrs 0 (i + 1)) in *. assert (LL : length L = m + 1) by (unfold L; rewrite upd_length; auto). rewrite (lget_nth _ L i 0) by lia. cbn [bind].
  assert (Hlt : forall j, 1 <= j <= i -> nth j L 0 < j) by (intros j Hj; unfold L; rewrite nth_upd, (proj2 (Nat.eqb_neq j 0)) by lia; apply (iv_lt _ _ _ I j Hj)).
  assert (H0 : nth 0 L 0 = i + 1) by (unfold L; rewrite nth_upd; cbn [Nat.eqb andb]; rewrite (proj2 (Nat.ltb_lt _ _)) by lia; reflexivity).
  destruct (walk_ok q0 fuel i L log Hi Hlt H0 LL (i + 3) st q R log (nth i L 0) A W ltac:(lia) ltac:(lia) Hq) as [(E & C)|(st' & k & q' & R' & log' & r & E & A' & W' & Q' & Er & Hr)]; rewrite E; cbn [bind]; [left; auto|right].
  rewrite Er. cbn [bind]. rewrite lset_Ok by lia. cbn [bind]. eexists _, _, q', R', log'. split; [reflexivity|]. split; auto. split; auto. eapply walk_end; eauto.
Qed.
Lemma letters_ok : forall q0 fuel st q R, Arr ck st q R [] -> q0 <= q <= q0 -> forall i, i <= m ->
  (foldM (fo_letter fuel) (seq 0 i) (st, repeat 0 (m + 1)) = Fuel /\ stuck q0 fuel) \/
  exists st' lrs' q' R' log', foldM (fo_letter fuel) (seq 0 i) (st, repeat 0 (m + 1)) = Ok (st', lrs') /\ Arr ck st' q' R' log' /\ Inv i lrs' log' /\ q0 <= q' <= q0 + length log'.
Proof.
  intros q0 fuel st q R A Hq. induction i as [|i IH]; intros Hi.
  - right. exists st, (repeat 0 (m + 1)), q, R, []. split; auto. split; auto. split; [|simpl; lia]. constructor.
    + apply repeat_length.
    + intros j Hj. lia.
    + constructor; [intros s t []|intros s t t' []|constructor|simpl; lia].
    + intros s t [(E & _)|[]] Lt. lia.
    + intros s t ds dt [(E & _)|[]] Lt. lia.
    + intros d Hd. inversion Hd; [simpl; lia|lia].
    + intros s t [(E & _)|[]] Lt. lia.
    + intros j Hj. lia.
  - rewrite seq_S, foldM_app. destruct (IH ltac:(lia)) as [(E & C)|(st1 & L1 & q1 & R1 & log1 & E & A1 & I1 & Q1)]; rewrite E; cbn [bind foldM plus]; [left; auto|].
    destruct (letter_ok q0 fuel i L1 st1 q1 R1 log1 ltac:(lia) A1 I1 Q1) as [(E2 & C)|(st2 & L2 & q2 & R2 & log2 & E2 & A2 & I2 & Q2)]; rewrite E2; cbn [bind]; [left; auto|right]. replace (S i) with (i + 1) by lia. exists st2, L2, q2, R2, log2. auto.
Qed.

(** ** the first blocks *)
Lemma grow_ok : forall steps st q, fb_check st = ck -> fb_base st = repeat None (m + 1) -> fb_ut st = repeat false (256 * q) -> fb_us st = repeat false (256 * q) -> fb_front st = 0 -> Free st q (seq 0 (256 * q)) -> m <= 256 * q + steps -> 256 * q < m + 256 ->
  exists st' q', fo_grow steps st = Ok st' /\ fb_check st' = ck /\ fb_base st' = repeat None (m + 1) /\ fb_ut st' = repeat false (256 * q') /\ Free st' q' (seq 0 (256 * q')) /\ m <= 256 * q' < m + 256.
Proof.
  induction steps as [|steps IH]; intros st q Ec Eb Et Es Ef F Hs Hq; cbn [fo_grow]; rewrite (fr_nx _ _ _ F), Ec; fold m; destruct (Nat.ltb_spec (256 * q) m) as [L|L]; try lia.
  - exists st, q. repeat (split; auto).
  - assert (HR : seq 0 (256 * q) = [] \/ exists l, seq 0 (256 * q) = fb_front st :: l).
    { rewrite Ef. destruct (256 * q) as [|x]; [left; reflexivity|right; simpl; eauto]. }
    assert (HC : seq 0 (256 * q) <> [] \/ (ut_at st 0 = true /\ 1 <= q) \/ q = 0).
    { destruct q as [|q]; [auto|left]. replace (256 * S q) with (S (256 * q + 255)) by lia. discriminate. }
    destruct (expand_ok st q _ F HR HC) as (st1 & E1 & C1 & B1 & S1 & U1 & F1 & Fr & _). rewrite E1. cbn [bind].
    assert (Eq : 256 * S q = 256 * q + 256) by lia.
    apply (IH st1 (S q)); try congruence.
    + rewrite U1, Et, Eq, repeat_app. reflexivity.
    + rewrite S1, Es, Eq, repeat_app. reflexivity.
    + rewrite F1. destruct q as [|q]; [reflexivity|]. replace (256 * S q) with (S (256 * q + 255)) by lia. cbn [seq]. exact Ef.
    + rewrite Eq, seq_app. exact Fr.
    + lia.
    + lia.
  - exists st, q. repeat (split; auto).
Qed.
Lemma start_ok : 1 <= m -> exists st q0 R, (do st <- fo_grow m (fo_init ck); set_next st 0 0) = Ok st /\ Arr ck st q0 R [] /\ m <= 256 * q0 < m + 256.
Proof.
  intros Hm. assert (F0 : Free (fo_init ck) 0 (seq 0 (256 * 0))).
  { constructor; simpl; auto; try constructor; auto; try (intros y []; fail); intros; lia. }
  destruct (grow_ok m (fo_init ck) 0 eq_refl eq_refl eq_refl eq_refl eq_refl F0 ltac:(lia) ltac:(lia)) as (st & q & E & Ec & Eb & Et & F & Hq). rewrite E. cbn [bind].
  assert (U : forall y, ut_at st y = false) by (intros y; rewrite Et; destruct (Nat.lt_ge_cases y (256 * q)); [apply nth_repeat_lt; auto|apply nth_overflow; rewrite repeat_length; auto]).
  destruct (set_next_ok st q _ 0 0 F ltac:(lia) (U 0)) as (st' & E' & C' & B' & S' & U' & N' & _ & R' & F' & L'). rewrite E'. exists st', q, R'. split; auto. split; [|lia].
  assert (Bn : forall s, base_at st' s = None) by (intros s; rewrite B', Eb; destruct (Nat.lt_ge_cases s (m + 1)); [apply nth_repeat_lt; auto|apply nth_overflow; rewrite repeat_length; auto]).
  assert (Ut : forall y, ut_at st' y = (y =? 0)).
  { intros y. rewrite U', nth_upd, U. rewrite (proj2 (Nat.ltb_lt 0 _)) by (rewrite (fr_ut _ _ _ F); lia). rewrite andb_true_r. destruct (y =? 0); auto. }
  constructor; auto; try congruence; try lia.
  - split; auto. rewrite Ut. reflexivity.
  - rewrite B', Eb, repeat_length. auto.
  - intros s t [].
  - intros x C. rewrite Ut in C. apply Nat.eqb_eq in C. auto.
  - rewrite seq_length in L'. cbn [cost]. lia.
Qed.
(** the finished automaton *)
Record Built (o : foracle) (log : list (nat * nat)) (lrs : list nat) : Prop := {
  bt_ck : fo_chk o = ck;
  bt_arr : exists st q R, Arr ck st q R log /\ fo_base o = fb_base st /\ fo_next o = fo_clear st;
  bt_inv : Inv m lrs log }.
Theorem build_ok : forall fuel, 1 <= m -> exists q0, m <= 256 * q0 < m + 256 /\
  ((fo_build fuel ck = Fuel /\ stuck q0 fuel) \/ exists o log lrs, fo_build fuel ck = Ok o /\ Built o log lrs).
Proof.
  intros fuel Hm. destruct (start_ok Hm) as (st & q0 & R & E & A & Hq). exists q0. split; auto. unfold fo_build. fold m.
  assert (Hs : exists st0, fo_grow m (fo_init ck) = Ok st0 /\ set_next st0 0 0 = Ok st).
  { destruct (fo_grow m (fo_init ck)) as [st0| | |]; try discriminate. eauto. }
  destruct Hs as (st0 & E0 & E1). rewrite E0. cbn [bind]. rewrite E1. cbn [bind].
  destruct (letters_ok q0 fuel st q0 R A ltac:(lia) m (le_n m)) as [(E2 & C)|(st' & L & q' & R' & log & E2 & A' & I' & Q')]; rewrite E2; cbn [bind fst]; [left; auto|right].
  eexists _, log, L. split; [reflexivity|]. constructor; auto. exists st', q', R'. auto.
Qed.
(** if the text has few letters the list of free slots is never exhausted *)
Lemma not_stuck : forall q0 fuel, m <= 256 * q0 -> (m - 2) * (sigma - 1) + 2 <= 256 * q0 -> 256 * (q0 + m) < fuel -> ~ stuck q0 fuel.
Proof.
  intros q0 fuel Hm Hc Hf (st & q & R & log & A & Co & Ll & Hq & C). pose proof (ar_count _ _ _ _ _ A) as Ct. pose proof (ar_free _ _ _ _ _ A) as F.
  assert (LR : length R <= 256 * q). { rewrite <- (seq_length (256 * q) 0). apply NoDup_incl_length; [apply (fr_nodup _ _ _ F)|]. intros y Hy. apply (fr_in _ _ _ F) in Hy. apply in_seq. lia. }
  assert (cost log <= (m - 2) * (sigma - 1)) by (transitivity (length log * (sigma - 1)); [auto|apply Nat.mul_le_mono_r; lia]).
  destruct C as [->|C]; [cbn [length] in Ct; lia|lia].
Qed.

(** ** reading *)
Section Read.
Variable o : foracle.
Variable log : list (nat * nat).
Variable lrs : list nat.
Hypothesis Hb : Built o log lrs.
Lemma D_lt : forall s t, D log s t -> s < t <= m.
Proof using Hb Hck. intros s t [(-> & L)|I]; [lia|]. apply (lg_edge _ _ (iv_log _ _ _ (bt_inv _ _ _ Hb))) in I. lia. Qed.
Lemma D_det : forall s t t', D log s t -> D log s t' -> chk t = chk t' -> t = t'.
Proof using Hb Hck.
  pose proof (iv_log _ _ _ (bt_inv _ _ _ Hb)) as [Ed Dt _ _]. intros s t t' [(-> & L)|I] [(-> & L')|I'] C; auto; [|symmetry in C|eapply Dt; eauto]; exfalso; eapply Ed; eauto.
Qed.
(** a step of the automaton, in a state that is not the last *)
Lemma image_ok : forall beyond s c, s < m -> (c < 256)%N -> exists r, fo_image beyond o s c = Ok r /\ forall t, r = Some t <-> D log s t /\ chk t = c.
Proof using Hb Hck.
  intros beyond s c Hs Hc. destruct (bt_arr _ _ _ Hb) as (st & q & R & A & Eb & En). pose proof (ar_free _ _ _ _ _ A) as F. pose proof (iv_log _ _ _ (bt_inv _ _ _ Hb)) as Lg.
  assert (Ck : forall t, FoFree.valid ck t -> fo_check (fo_chk o ++ beyond) t = Ok (chk t)).
  { intros t (V1 & V2). rewrite (bt_ck _ _ _ Hb). destruct t as [|t]; [lia|]. cbn [fo_check]. rewrite (lget_nth _ _ _ 0%N) by (rewrite app_length; lia). rewrite app_nth1 by lia. unfold chk, FoFree.chk. replace (S t - 1) with t by lia. reflexivity. }
  unfold fo_image. rewrite Ck by (split; fold m; lia). cbn [bind]. destruct (N.eqb_spec (chk (s + 1)) c) as [E|E].
  - exists (Some (s + 1)). split; auto. intros t. split; [intros C; injection C as <-; split; auto; left; lia|]. intros (Dt & Et). f_equal. apply (D_det s); auto; [left; lia|congruence].
  - rewrite Eb, (lget_nth _ (fb_base st) s None) by (rewrite (ar_bl _ _ _ _ _ A); fold m; lia). cbn [bind].
    assert (Dl : forall t, D log s t -> chk t = c -> In (s, t) log) by (intros t [(-> & _)|I] C; [congruence|auto]).
    destruct (base_at st s) as [b|] eqn:Es.
    + destruct (ar_base _ _ _ _ _ A s b Es) as (_ & Lb & _). pose proof (slot_lt b c q Hc Lb) as Sl. unfold fo_clear in En. set (x := slot b c) in *.
      assert (Gx : lget (fo_next o) x = Ok (if ut_at st x then next_at st x else Some 0)).
      { rewrite En. rewrite (lget_nth _ _ x ((fun p : option nat * bool => if snd p then fst p else Some 0) (None, false))) by (rewrite map_length, combine_length, (fr_nx _ _ _ F), (fr_ut _ _ _ F); lia). f_equal.
        rewrite (map_nth (fun p : option nat * bool => if snd p then fst p else Some 0)). rewrite combine_nth by (rewrite (fr_nx _ _ _ F), (fr_ut _ _ _ F); auto). cbn [fst snd]. reflexivity. }
      rewrite Gx. cbn [bind]. assert (Lst : forall t, In (s, t) log -> chk t = c -> ut_at st x = true /\ next_at st x = Some t).
      { intros t I Et. destruct (ar_edge _ _ _ _ _ A s t I) as (_ & _ & b' & Eb' & U & Nx). assert (b' = b) by congruence. subst b'. fold chk in U, Nx. rewrite Et in U, Nx. auto. }
      destruct (ut_at st x) eqn:U.
      * assert (Hx : exists t', next_at st x = Some t' /\ ((t' = 0) \/ (FoFree.valid ck t' /\ (chk t' = c -> In (s, t') log)))).
        { destruct (ar_own _ _ _ _ _ A x U) as [E0|(s' & t' & b' & I & Eb' & Ex)].
          - exists 0. rewrite E0. split; [apply (ar_0 _ _ _ _ _ A)|auto].
          - destruct (ar_edge _ _ _ _ _ A s' t' I) as (_ & V & b2 & Eb2 & _ & Nx). assert (b2 = b') by congruence. subst b2. rewrite <- Ex in Nx. exists t'. split; auto. right. split; auto. intros C. unfold x in Ex. fold chk in Ex. rewrite C in Ex. apply slot_inj in Ex. subst b'. assert (s = s') by (eapply (ar_inj _ _ _ _ _ A); eauto). subst. auto. }
        destruct Hx as (t' & Nx & Ht). rewrite Nx. cbn [some_id bind]. assert (Un : forall t, D log s t -> chk t = c -> t = t') by (intros t I Et; destruct (Lst t (Dl t I Et) Et) as (_ & C); rewrite Nx in C; congruence).
        destruct (Nat.leb_spec t' s) as [L|L].
        -- exists None. split; auto. intros t. split; [discriminate|]. intros (I & Et). exfalso. pose proof (Un t I Et). pose proof (D_lt _ _ I). lia.
        -- destruct Ht as [->|(V & Ht)]; [lia|]. rewrite Ck by auto. cbn [bind]. eexists. split; [reflexivity|]. intros t. destruct (N.eqb_spec (chk t') c) as [Ec|Ec].
           ++ split; [intros C; injection C as <-; split; auto; right; auto|]. intros (I & Et). f_equal. symmetry. apply Un; auto.
           ++ split; [discriminate|]. intros (I & Et). exfalso. pose proof (Un t I Et). subst. auto.
      * cbn [some_id bind]. rewrite (proj2 (Nat.leb_le 0 s)) by lia. exists None. split; auto. intros t. split; [discriminate|]. intros (I & Et). destruct (Lst t (Dl t I Et) Et). congruence.
    + exists None. split; auto. intros t. split; [discriminate|]. intros (I & Et). destruct (ar_edge _ _ _ _ _ A s t (Dl t I Et)) as (_ & _ & b' & Eb' & _). congruence.
Qed.
Lemma image_last : forall beyond z c, beyond = z :: tl beyond -> (z =? c)%N = false -> fo_image beyond o m c = Ok None.
Proof using Hb Hck.
  intros beyond z c E Hz. destruct (bt_arr _ _ _ Hb) as (st & q & R & A & Eb & En). unfold fo_image. rewrite (bt_ck _ _ _ Hb). replace (m + 1) with (S m) by lia. cbn [fo_check]. rewrite (lget_nth _ _ _ 0%N) by (rewrite app_length, E; cbn [length]; fold m; lia). rewrite app_nth2 by (fold m; lia). fold m. rewrite Nat.sub_diag, E. cbn [nth bind]. rewrite Hz.
  rewrite Eb, (lget_nth _ (fb_base st) m None) by (rewrite (ar_bl _ _ _ _ _ A); fold m; lia). cbn [bind]. destruct (base_at st m) as [b|] eqn:Es; auto. apply (ar_base _ _ _ _ _ A) in Es. fold m in Es. lia.
Qed.
Inductive path : nat -> list N -> nat -> Prop :=
| path_nil : forall s, path s [] s
| path_cons : forall s c w t u, D log s t -> chk t = c -> path t w u -> path s (c :: w) u.
Lemma path_app : forall s w t v u, path s w t -> path t v u -> path s (w ++ v) u.
Proof. intros s w t v u H. induction H; intros; simpl; auto. econstructor; eauto. Qed.
Lemma path_length : forall s w t, path s w t -> s + length w <= t.
Proof using Hb Hck. intros s w t H. induction H; cbn [length]; [lia|]. pose proof (D_lt _ _ H). lia. Qed.
Lemma path_end : forall s w t, path s w t -> s <= m -> t <= m.
Proof using Hb Hck. intros s w t P. induction P; intros; auto. apply IHP. pose proof (D_lt _ _ H). lia. Qed.
(** every suffix of the text read so far leads into the chain of its state *)
Lemma suffix_path : forall j k, k <= j <= m -> exists t, path 0 (firstn (j - k) (skipn k ck)) t /\ sup lrs t j.
Proof using Hb Hck.
  pose proof (bt_inv _ _ _ Hb) as I. induction j as [|j IH]; intros k Hk.
  - exists 0. replace (0 - k) with 0 by lia. split; constructor.
  - destruct (Nat.eq_dec k (S j)) as [->|Nk].
    + exists 0. rewrite Nat.sub_diag. split; [constructor|]. apply (sup_zero lrs m (iv_lt _ _ _ I)). lia.
    + destruct (IH k ltac:(lia)) as (q & P & Sq). destruct (iv_B _ _ _ I j (S j)) with (q := q) as (t & T1 & T2 & T3 & T4); auto; [left; lia|lia|].
      exists t. split; auto. replace (S j - k) with (S (j - k)) by lia. assert (Lk : j - k < length (skipn k ck)) by (rewrite skipn_length; fold m; lia).
      assert (E : firstn (S (j - k)) (skipn k ck) = firstn (j - k) (skipn k ck) ++ [chk t]).
      { rewrite T3. unfold chk, FoFree.chk. replace (S j - 1) with (k + (j - k)) by lia. generalize (j - k) as x, Lk. clear. intros x L. revert k L. induction ck as [|a l IH]; intros k L; [rewrite skipn_nil in L; simpl in L; lia|]. destruct k as [|k]; [|simpl; apply (IH k); auto].
        simpl in *. clear IH. revert l L. revert a. induction x as [|x IH]; intros a l L; [reflexivity|]. destruct l as [|b l]; [simpl in L; lia|]. cbn [firstn app nth]. f_equal. apply IH. simpl in *. lia. }
      rewrite E. eapply path_app; eauto. econstructor; eauto. constructor.
Qed.
Lemma accept_path : forall beyond w s u, path s w u -> fo_accept_from beyond o s w = Ok true.
Proof using Hb Hck.
  intros beyond w s u H. induction H as [|s c w t u Ds Ec P IH]; [reflexivity|]. cbn [fo_accept_from]. pose proof (D_lt _ _ Ds). assert (Hc : (c < 256)%N) by (subst c; apply Hck; fold m; lia).
  destruct (image_ok beyond s c ltac:(lia) Hc) as (r & Er & Hr). rewrite Er. cbn [bind]. rewrite (proj2 (Hr t)) by auto. auto.
Qed.
Lemma path_accept : forall w s, s <= m -> (forall c, In c w -> (c < 256)%N) -> fo_accept_from [] o s w = Ok true -> exists u, path s w u.
Proof using Hb Hck.
  induction w as [|c w IH]; intros s Hs Hw E; [exists s; constructor|]. cbn [fo_accept_from] in E. destruct (Nat.eq_dec s m) as [->|Ns].
  - exfalso. unfold fo_image in E. rewrite (bt_ck _ _ _ Hb), app_nil_r in E. replace (m + 1) with (S m) in E by lia. cbn [fo_check] in E. rewrite (proj2 (lget_UB _ ck m)) in E by (fold m; lia). discriminate.
  - destruct (image_ok [] s c ltac:(lia)) as (r & Er & Hr); [apply Hw; now left|]. rewrite Er in E. cbn [bind] in E. destruct r as [t|]; [|discriminate]. destruct (proj1 (Hr t) eq_refl) as (Dt & Et). pose proof (D_lt _ _ Dt). destruct (IH t) as (u & P); auto; [lia|intros; apply Hw; now right|]. exists u. econstructor; eauto.
Qed.
(** the only path of length m follows the text *)
Lemma path_full : forall w s u, path s w u -> s + length w = m -> w = skipn s ck.
Proof using Hb Hck.
  intros w s u H. induction H as [|s c w t u Ds Ec P IH]; intros L.
  - cbn [length] in L. rewrite skipn_all2; auto. fold m. lia.
  - cbn [length] in L. pose proof (D_lt _ _ Ds). pose proof (path_length _ _ _ P). pose proof (path_end _ _ _ P ltac:(lia)).
    assert (t = s + 1) by lia. subst t. rewrite IH by lia. subst c. unfold chk, FoFree.chk. replace (s + 1 - 1) with s by lia. assert (Ls : s < length ck) by (fold m; lia). clear - Ls. revert s Ls. induction ck as [|a l IH]; intros s L; [simpl in L; lia|]. destruct s as [|s]; [reflexivity|]. cbn [plus skipn nth]. apply IH. simpl in L. lia.
Qed.
End Read.
End Oracle.
