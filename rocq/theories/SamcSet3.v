(** Samc on arbitrary lists of keys: the construction level by level, for two lists with the same C strings. *)
From Coq Require Import List NArith ZArith Arith Bool Lia.
From Verif Require Import Base Spec10 BitUtilModel BitVectorModel BitVectorProof BitVectorProof2 SamcModel SamcPack SamcLevel SamcSet SamcSet2.
Import ListNotations.
Local Open Scope nat_scope.
Ltac Zify.zify_post_hook ::= idtac.

Definition chd (d : nat) (k : list N) : N := nth d k 0%N.
Lemma char_at_le : forall k d, d <= length k -> char_at k d = Ok (chd d k).
Proof.
  intros k d H. unfold char_at, chd. destruct (Nat.ltb_spec d (length k)) as [L|L].
  - now apply lget_nth.
  - replace d with (length k) by lia. rewrite Nat.eqb_refl, nth_overflow by lia. reflexivity.
Qed.
Lemma skip_cut : forall k d, d <= length k -> c_string (skipn d k) = if (chd d k =? 0)%N then [] else chd d k :: c_string (skipn (S d) k).
Proof.
  induction k as [|x k IH]; intros d H.
  - cbn [length] in H. replace d with 0 by lia. reflexivity.
  - destruct d; [reflexivity|]. cbn [length] in H. change (chd (S d) (x :: k)) with (chd d k). change (skipn (S d) (x :: k)) with (skipn d k). change (skipn (S (S d)) (x :: k)) with (skipn (S d) k). apply IH. lia.
Qed.
Lemma chd_lt : forall k d, d <= length k -> chd d k <> 0%N -> d < length k.
Proof. intros k d H N0. destruct (Nat.eq_dec d (length k)) as [->|]; [|lia]. exfalso. apply N0. unfold chd. apply nth_overflow. lia. Qed.
Lemma take_any : forall ks d c, (forall k, In k ks -> d <= length k) -> exists a b, take_group ks d c = Ok (a, b) /\ ks = a ++ b /\ (forall k, In k a -> chd d k = c) /\ match b with [] => True | k :: _ => chd d k <> c end.
Proof.
  induction ks as [|k ks IH]; intros d c H; cbn [take_group].
  - exists [], []. repeat split; auto. intros k [].
  - rewrite char_at_le by (apply H; now left). cbn [bind]. destruct (N.eqb_spec (chd d k) c) as [Q|Q].
    + destruct (IH d c) as (a & b & E & E' & A & B); [intros; apply H; now right|]. rewrite E. cbn [bind fst snd]. exists (k :: a), b. split; auto. split; [now rewrite E'|]. split; auto. intros k' [<-|Hk]; auto.
    + exists [], (k :: ks). repeat split; auto. intros k' [].
Qed.
Lemma groups_any : forall fuel ks d, length ks <= fuel -> (forall k, In k ks -> d <= length k) -> exists es, edge_groups fuel ks d = Ok es /\ concat (map snd es) = ks /\ forall c g, In (c, g) es -> g <> [] /\ forall k, In k g -> chd d k = c.
Proof.
  induction fuel as [|fuel IH]; intros [|k ks] d Hf H.
  - exists []. cbn. repeat split; auto; intros; contradiction.
  - cbn [length] in Hf. lia.
  - exists []. cbn. repeat split; auto; intros; contradiction.
  - cbn [edge_groups]. rewrite char_at_le by (apply H; now left). cbn [bind]. destruct (take_any (k :: ks) d (chd d k) H) as (a & b & E & Ek & A & B). rewrite E. cbn [bind fst snd].
    assert (Na : a <> []) by (intros ->; cbn [app] in Ek; subst b; congruence).
    destruct (IH b d) as (es & Ee & Ec & Eg).
    { assert (length (k :: ks) = length a + length b) by (rewrite Ek, app_length; reflexivity). cbn [length] in *. destruct a; [congruence|]. cbn [length] in *. lia. }
    { intros k' Hk. apply H. rewrite Ek. apply in_or_app. auto. }
    rewrite Ee. cbn [bind]. exists ((chd d k, a) :: es). split; auto. split; [cbn [map snd concat]; now rewrite Ec|]. intros c g [Q|Hin]; [|auto]. injection Q as <- <-. auto.
Qed.
Lemma skip_any : forall ks d, exists a, ks = a ++ skip_ended ks d /\ forall k, In k a -> length k = d.
Proof.
  induction ks as [|k ks IH]; intros d; cbn [skip_ended].
  - exists []. split; auto. intros k [].
  - destruct (Nat.eqb_spec (length k) d) as [Q|Q].
    + destruct (IH d) as (a & E & A). exists (k :: a). split; [cbn [app]; now rewrite <- E|]. intros k' [<-|Hk]; auto.
    + exists []. split; auto. intros k' [].
Qed.
Lemma explore_any : forall ks d, ks <> [] -> (forall k, In k ks -> d <= length k) -> exists es, explore ks d = Ok es /\
  (forall c g, In (c, g) es -> (exists k, In k ks /\ chd d k = c) /\ (c <> 0%N -> g <> [] /\ forall k, In k g -> In k ks /\ chd d k = c)) /\
  (forall k, In k ks -> exists g, In (chd d k, g) es /\ (chd d k <> 0%N -> In k g)).
Proof.
  intros ks d Hn H. destruct ks as [|k ks]; [congruence|]. cbn [explore]. destruct (Nat.eqb_spec (length k) d) as [Q|Q].
  - destruct (skip_any ks d) as (a & Ea & A). destruct (groups_any (length ks) (skip_ended ks d) d) as (es & Ee & Ec & Eg).
    { assert (length ks = length a + length (skip_ended ks d)) by (rewrite <- app_length, <- Ea; reflexivity). lia. }
    { intros k' Hk. apply H. right. rewrite Ea. apply in_or_app. auto. }
    rewrite Ee. cbn [bind]. exists ((0%N, []) :: es). split; auto. assert (K0 : forall k', length k' = d -> chd d k' = 0%N) by (intros k' L; unfold chd; apply nth_overflow; lia).
    assert (GI : forall c g k', In (c, g) es -> In k' g -> In k' (skip_ended ks d)) by (intros c g k' I1 I2; rewrite <- Ec; apply in_concat; exists g; split; auto; apply in_map_iff; exists (c, g); auto).
    split.
    + intros c g [X|X]; [injection X as <- <-; split; [exists k; split; [now left|auto]|congruence]|]. destruct (Eg c g X) as (Ng & Hg).
      assert (Hg' : forall k', In k' g -> In k' (k :: ks) /\ chd d k' = c) by (intros k' Hk'; split; [right; rewrite Ea; apply in_or_app; right; eapply GI; eauto|auto]).
      split; [|auto]. destruct g as [|k' g]; [congruence|]. exists k'. apply Hg'. now left.
    + intros k' [<-|Hk]; [exists []; rewrite K0 by auto; split; [now left|congruence]|]. rewrite Ea in Hk. apply in_app_or in Hk. destruct Hk as [Hk|Hk]; [exists []; rewrite K0 by auto; split; [now left|congruence]|].
      rewrite <- Ec in Hk. apply in_concat in Hk. destruct Hk as (g & Hg & Hk). apply in_map_iff in Hg. destruct Hg as ((c & g') & Q1 & Hg). cbn [snd] in Q1. subst g'. exists g. destruct (Eg c g Hg) as (_ & X). rewrite (X k' Hk). split; [now right|auto].
  - destruct (groups_any (length (k :: ks)) (k :: ks) d) as (es & Ee & Ec & Eg); auto. exists es. split; auto.
    assert (GI : forall c g k', In (c, g) es -> In k' g -> In k' (k :: ks)) by (intros c g k' I1 I2; rewrite <- Ec; apply in_concat; exists g; split; auto; apply in_map_iff; exists (c, g); auto).
    split.
    + intros c g X. destruct (Eg c g X) as (Ng & Hg). split; [|split; auto; intros k' Hk'; split; auto; eapply GI; eauto]. destruct g as [|k' g]; [congruence|]. exists k'. split; [eapply GI; eauto; now left|apply Hg; now left].
    + intros k' Hk. rewrite <- Ec in Hk. apply in_concat in Hk. destruct Hk as (g & Hg & Hk). apply in_map_iff in Hg. destruct Hg as ((c & g') & Q1 & Hg). cbn [snd] in Q1. subst g'. exists g. destruct (Eg c g Hg) as (_ & X). rewrite (X k' Hk). split; auto.
Qed.

(** ** what a queue means *)
Definition queue := list (nat * list (list N)).
Definition Sem (d : nat) (Q : queue) (x : nat) (w : list N) : Prop := exists ks k, In (x, ks) Q /\ In k ks /\ w = c_string (skipn d k).
Definition QWf (d : nat) (Q : queue) : Prop := forall x ks, In (x, ks) Q -> ks <> [] /\ forall k, In k ks -> d <= length k /\ bytes k.
Record Edges (d h : nat) (Q : queue) (E : list edge) : Prop := {
  ed_src : forall c i g, In (c, i, g) E -> exists x ks k, In (x, ks) Q /\ In k ks /\ i = x - h /\ c = chd d k /\ (c <> 0%N -> g <> [] /\ forall k', In k' g -> In k' ks /\ chd d k' = c);
  ed_all : forall x ks k, In (x, ks) Q -> In k ks -> exists g, In (chd d k, x - h, g) E /\ (chd d k <> 0%N -> In k g)
}.
Lemma collect_any : forall d h Q, QWf d Q -> exists E, collect Q d h = Ok E /\ Edges d h Q E.
Proof.
  intros d h Q HQ. unfold collect.
  assert (G : forall Q2 Q1 acc, (forall q, In q Q2 -> In q Q) -> Edges d h Q1 acc -> exists E, foldM (fun acc q => do es <- explore (snd q) d; Ok (acc ++ map (fun e => (fst e, fst q - h, snd e)) es)) Q2 acc = Ok E /\ Edges d h (Q1 ++ Q2) E).
  { induction Q2 as [|(x & ks) Q2 IH]; intros Q1 acc HI HA.
    - exists acc. rewrite app_nil_r. auto.
    - cbn [foldM fst snd]. destruct (HQ x ks) as (Nk & Hk); [apply HI; now left|]. destruct (explore_any ks d Nk) as (es & Ee & E1 & E2); [intros k Hk'; now apply Hk|]. rewrite Ee. cbn [bind].
      destruct (IH (Q1 ++ [(x, ks)]) (acc ++ map (fun e => (fst e, x - h, snd e)) es)) as (E & EE & HE); [intros; apply HI; now right| |exists E; split; auto; now rewrite <- app_assoc in HE].
      constructor.
      + intros c i g Hin. apply in_app_or in Hin. destruct Hin as [Hin|Hin].
        * destruct (ed_src _ _ _ _ HA c i g Hin) as (x' & ks' & k' & A & B). exists x', ks', k'. split; auto. apply in_or_app. auto.
        * apply in_map_iff in Hin. destruct Hin as ((c' & g') & X & Hin). cbn [fst snd] in X. injection X as -> <- ->. destruct (E1 c g Hin) as ((k & Ik & Ck) & G). exists x, ks, k. split; [apply in_or_app; right; now left|]. repeat split; auto; now apply G.
      + intros x' ks' k' H1 H2. apply in_app_or in H1. destruct H1 as [H1|[H1|[]]].
        * destruct (ed_all _ _ _ _ HA x' ks' k' H1 H2) as (g & G1 & G2). exists g. split; auto. apply in_or_app. auto.
        * injection H1 as -> ->. destruct (E2 k' H2) as (g & G1 & G2). exists g. split; auto. apply in_or_app. right. apply in_map_iff. exists (chd d k', g). auto. }
  destruct (G Q [] []) as (E & EE & HE); auto; [|exists E; auto]. constructor; [intros c i g []|intros x ks k []].
Qed.
Lemma cut_hd : forall d k, d <= length k -> hd 0%N (c_string (skipn d k)) = chd d k.
Proof. intros d k H. rewrite skip_cut by auto. destruct (N.eqb_spec (chd d k) 0) as [->|]; reflexivity. Qed.
Lemma keys_spec : forall d h Q E, QWf d Q -> Edges d h Q E -> forall c i, In (c, i) (keyset E) <-> exists x w, Sem d Q x w /\ i = x - h /\ c = hd 0%N w.
Proof.
  intros d h Q E HQ HE c i. split.
  - intros H. apply in_map_iff in H. destruct H as (((c' & i') & g) & X & H). cbn [fst] in X. injection X as -> ->. destruct (ed_src _ _ _ _ HE c i g H) as (x & ks & k & A & B & C & D & _). exists x, (c_string (skipn d k)). split; [exists ks, k; auto|]. split; auto. rewrite cut_hd by (now apply (HQ x ks)). auto.
  - intros (x & w & (ks & k & A & B & ->) & -> & ->). rewrite cut_hd by (now apply (HQ x ks)). destruct (ed_all _ _ _ _ HE x ks k A B) as (g & H & _). apply in_map_iff. exists (chd d k, x - h, g). auto.
Qed.
Lemma byte_chd : forall d k, bytes k -> (chd d k < 256)%N.
Proof. intros d k H. unfold chd. destruct (lt_dec d (length k)) as [L|L]; [|rewrite nth_overflow by lia; lia]. unfold bytes in H. rewrite Forall_forall in H. apply H. now apply nth_In. Qed.
Lemma sem_next : forall d h0 h1 Q E m st, QWf d Q -> Edges d h0 Q E -> Placed h0 h1 m E st ->
  QWf (S d) (lv_queue st) /\ forall y w, Sem (S d) (lv_queue st) y w <-> exists x c, c <> 0%N /\ Sem d Q x (c :: w) /\ y = h0 + (x - h0) + N.to_nat (nth (N.to_nat c) (lv_row st) 0%N).
Proof.
  intros d h0 h1 Q E m st HQ HE HP. pose proof (pl_queue _ _ _ _ _ HP) as PQ. split.
  - intros y ks H. apply PQ in H. destruct H as (((c & i) & g) & A & B & C & -> & ->). cbn [tc fst snd] in *. destruct (ed_src _ _ _ _ HE c i g A) as (x & ks & k & I1 & I2 & I3 & I4 & I5). destruct (I5 C) as (Ng & Hg). split; auto. intros k' Hk'. destruct (Hg k' Hk') as (Ik & Ck).
    destruct (HQ x ks I1) as (_ & HH). destruct (HH k' Ik) as (L & By). split; auto. apply chd_lt; auto. congruence.
  - intros y w. split.
    + intros (g' & k & A & B & ->). apply PQ in A. destruct A as (((c & i) & g) & A1 & A2 & A3 & -> & ->). cbn [tc fst snd] in *. destruct (ed_src _ _ _ _ HE c i g A1) as (x & ks & k0 & I1 & I2 & I3 & I4 & I5). destruct (I5 A3) as (Ng & Hg). destruct (Hg k B) as (Ik & Ck).
      exists x, c. split; auto. split; [|unfold posn, tid, tc; cbn [fst snd]; subst i; reflexivity]. exists ks, k. split; auto. split; auto. rewrite (skip_cut k d) by (now apply (HQ x ks)). rewrite Ck. destruct (N.eqb_spec c 0); [congruence|reflexivity].
    + intros (x & c & Nc & (ks & k & I1 & I2 & W) & ->). destruct (HQ x ks I1) as (_ & HH). destruct (HH k I2) as (L & By). rewrite skip_cut in W by auto. destruct (N.eqb_spec (chd d k) 0) as [Z|Z]; [discriminate|]. injection W as -> ->.
      destruct (ed_all _ _ _ _ HE x ks k I1 I2) as (g & G1 & G2). exists g, k. split; [|auto]. apply PQ. exists (chd d k, x - h0, g). split; auto. split; [cbn [tc fst]; apply byte_chd; auto|]. split; auto.
Qed.

(** ** two queues with the same meaning *)
Definition functional (M : list (nat * N)) : Prop := forall p c c', In (p, c) M -> In (p, c') M -> c = c'.
Lemma sem_nil : forall d Q, QWf d Q -> (Q = [] <-> forall x w, ~ Sem d Q x w).
Proof.
  intros d Q HQ. split; [intros -> x w (ks & k & [] & _)|]. intros H. destruct Q as [|(x & ks) Q]; auto. exfalso. destruct (HQ x ks (or_introl eq_refl)) as (Nk & _). destruct ks as [|k ks]; [congruence|]. apply (H x (c_string (skipn d k))). exists (k :: ks), k. split; [now left|]. split; [now left|reflexivity].
Qed.
Lemma placed_map : forall h0 h1 m F st, Placed h0 h1 m F st -> (forall e, In e F -> (tc e < 256)%N) -> functional m -> (forall p c, In (p, c) m -> p < h1) -> functional (lv_map st) /\ forall p c, In (p, c) (lv_map st) -> p < h1 + lv_max st.
Proof.
  intros h0 h1 m F st HP HF Fm Lm. pose proof (pl_map _ _ _ _ _ HP) as PM. pose proof (pl_range _ _ _ _ _ HP) as PR. split.
  - intros p c c' H H'. apply PM in H. apply PM in H'. destruct H as [H|(e & E1 & _ & E2 & E3)], H' as [H'|(e' & E1' & _ & E2' & E3')].
    + eapply Fm; eauto.
    + specialize (Lm _ _ H). specialize (PR _ E1'). lia.
    + specialize (Lm _ _ H'). specialize (PR _ E1). lia.
    + rewrite E3 in E3'. pose proof (pl_inj _ _ _ _ _ HP e e' E1 E1' E3') as X. unfold tc in *. congruence.
  - intros p c H. apply PM in H. destruct H as [H|(e & E1 & _ & E2 & E3)]; [specialize (Lm _ _ H); lia|]. specialize (PR _ E1). lia.
Qed.
Lemma last_snoc : forall (l : list nat) x d, last (l ++ [x]) d = x.
Proof. intros l x d. apply last_last. Qed.
Theorem levels_same : forall legacy fuel d h0 h1 head codes M M' Q Q', QWf d Q -> QWf d Q' -> (forall x w, Sem d Q x w <-> Sem d Q' x w) -> (forall x w, Sem d Q x w -> h0 <= x < h1) ->
  same_set M M' -> functional M -> (forall p c, In (p, c) M -> p < h1) -> last head 0 = h1 ->
  (build_levels legacy fuel d h0 h1 head codes M Q = Fuel /\ build_levels legacy fuel d h0 h1 head codes M' Q' = Fuel) \/
  exists hd' co' R R', build_levels legacy fuel d h0 h1 head codes M Q = Ok (hd', co', R) /\ build_levels legacy fuel d h0 h1 head codes M' Q' = Ok (hd', co', R') /\ same_set R R' /\ functional R /\ forall p c, In (p, c) R -> p < last hd' 0.
Proof.
  intros legacy. induction fuel as [|fuel IH]; intros d h0 h1 head codes M M' Q Q' HQ HQ' HS HR SM FM LM HL.
  - destruct Q as [|q Q].
    + assert (E : Q' = []) by (apply (sem_nil d); auto; intros x w H; apply HS in H; revert H; now apply (sem_nil d [])). subst Q'. right. exists head, codes, M, M'. rewrite HL. cbn [build_levels]. auto.
    + left. destruct Q' as [|q' Q']; [|split; reflexivity]. exfalso. assert (X : q :: Q = []); [|discriminate]. apply (sem_nil d); auto. intros x w H. apply HS in H. revert H. now apply (sem_nil d []).
  - destruct Q as [|q Q].
    + assert (E : Q' = []) by (apply (sem_nil d); auto; intros x w H; apply HS in H; revert H; now apply (sem_nil d [])). subst Q'. right. exists head, codes, M, M'. rewrite HL. cbn [build_levels]. auto.
    + destruct Q' as [|q' Q']. { exfalso. assert (X : q :: Q = []); [|discriminate]. apply (sem_nil d); auto. intros x w H. apply HS in H. revert H. now apply (sem_nil d []). }
      cbn [build_levels]. destruct (collect_any d h0 (q :: Q) HQ) as (E & EE & HE). destruct (collect_any d h0 (q' :: Q') HQ') as (E' & EE' & HE'). rewrite EE, EE'. cbn [bind].
      assert (SK : same_set (keyset E) (keyset E')). { intros (c & i). rewrite (keys_spec d h0 _ _ HQ HE), (keys_spec d h0 _ _ HQ' HE'). split; intros (x & w & A & B); exists x, w; (split; [now apply HS|auto]). }
      assert (HT : forall QQ EE0, QWf d QQ -> Edges d h0 QQ EE0 -> (forall x w, Sem d QQ x w -> h0 <= x < h1) -> forall e, In e EE0 -> (tc e < 256)%N /\ h0 + tid e < h1).
      { intros QQ EE0 W1 W2 W3 ((c & i) & g) He. destruct (ed_src _ _ _ _ W2 c i g He) as (x & ks & k & I1 & I2 & I3 & I4 & _). cbn [tc tid fst snd]. destruct (W1 x ks I1) as (_ & HH). destruct (HH k I2) as (L & By). split; [subst c; now apply byte_chd|]. assert (h0 <= x < h1) by (apply (W3 x (c_string (skipn d k))); exists ks, k; auto). lia. }
      assert (HR' : forall x w, Sem d (q' :: Q') x w -> h0 <= x < h1) by (intros x w H; apply (HR x w); now apply HS).
      destruct (level_pair legacy h0 h1 E E' M M' (HT _ _ HQ HE HR) SK) as (st & st' & X1 & X2 & Xm & Xr & P1 & P2). unfold start in X1, X2. rewrite X1, X2. cbn [bind]. rewrite Xm, Xr.
      destruct (sem_next d h0 h1 _ E M st HQ HE P1) as (W1 & N1). destruct (sem_next d h0 h1 _ E' M' st' HQ' HE' P2) as (W2 & N2). rewrite Xr in N2.
      destruct (placed_map h0 h1 M E st P1 ltac:(intros e He; now apply (HT _ _ HQ HE HR)) FM LM) as (F1 & L1).
      apply IH; auto.
      * intros y w. rewrite N1, N2. split; intros (x & c & A & B & C); exists x, c; (split; [auto|split; [now apply HS|auto]]).
      * intros y w (g & k & A & B & _). apply (pl_queue _ _ _ _ _ P1) in A. destruct A as (e & A1 & A2 & A3 & _ & ->). apply (pl_range _ _ _ _ _ P1 e A1).
      * intros (p & c). rewrite (pl_map _ _ _ _ _ P1 p c), (pl_map _ _ _ _ _ P2 p c), Xr.
        assert (KE : forall A B, same_set (keyset A) (keyset B) -> (exists e : edge, In e A /\ (tc e < N.of_nat 256)%N /\ tc e = c /\ p = posn h0 (lv_row st) e) -> exists e : edge, In e B /\ (tc e < N.of_nat 256)%N /\ tc e = c /\ p = posn h0 (lv_row st) e).
        { intros A B SAB (e & E1 & E2 & E3 & E4). assert (Hk : In (fst e) (keyset B)) by (apply SAB; now apply in_map). apply in_map_iff in Hk. destruct Hk as (f & Qf & Hf). exists f. rewrite (posn_fst h0 _ f e Qf). unfold tc in *. rewrite Qf. auto. }
        rewrite (SM (p, c)). split; (intros [H|H]; [now left|right]); (eapply KE; [|exact H]); auto. now apply same_sym.
      * apply last_snoc.
Qed.
Lemma writes_any : forall M s0, functional M -> (forall p c, In (p, c) M -> p < length s0) -> exists s, foldM (fun s w => lset s (fst w) (snd w)) M s0 = Ok s /\ length s = length s0 /\ (forall p c, In (p, c) M -> nth p s 0%N = c) /\ (forall p, ~ In p (map fst M) -> nth p s 0%N = nth p s0 0%N).
Proof.
  induction M as [|(p & c) M IH]; intros s0 F L; cbn [foldM].
  - exists s0. repeat split; auto. intros p c [].
  - cbn [fst snd]. rewrite lset_Ok by (apply (L p c); now left). cbn [bind]. destruct (IH (upd s0 p c)) as (s & E & Ln & A & B).
    + intros q x y Hx Hy. apply (F q); now right.
    + intros q x Hx. rewrite upd_length. apply (L q x). now right.
    + exists s. split; auto. split; [now rewrite Ln, upd_length|]. split.
      * intros q x [Q|Hx]; [|auto]. injection Q as <- <-. destruct (in_dec Nat.eq_dec p (map fst M)) as [I|I].
        -- apply in_map_iff in I. destruct I as ((p' & c') & Q & I). cbn [fst] in Q. subst p'. rewrite (A p c' I). apply (F p); [now right|now left].
        -- rewrite (B p I), nth_upd, Nat.eqb_refl. cbn [andb]. destruct (Nat.ltb_spec p (length s0)) as [|Lp]; auto. specialize (L p c (or_introl eq_refl)). lia.
      * intros q Hq. cbn [map fst] in Hq. rewrite B by (intros I; apply Hq; now right). rewrite nth_upd. destruct (Nat.eqb_spec q p) as [->|]; [exfalso; apply Hq; now left|reflexivity].
Qed.
Lemma writes_same : forall M M' s0, functional M -> (forall p c, In (p, c) M -> p < length s0) -> same_set M M' -> foldM (fun s w => lset s (fst w) (snd w)) M s0 = foldM (fun s w => lset s (fst w) (snd w)) M' s0.
Proof.
  intros M M' s0 F L H. destruct (writes_any M s0 F L) as (s & E & Ln & A & B). destruct (writes_any M' s0) as (s' & E' & Ln' & A' & B'); [intros p c c' X Y; apply (F p); now apply H|intros p c X; apply (L p c); now apply H|].
  rewrite E, E'. f_equal. apply (nth_ext _ _ 0%N 0%N); [congruence|]. intros p Hp. destruct (in_dec Nat.eq_dec p (map fst M)) as [I|I].
  - apply in_map_iff in I. destruct I as ((p' & c) & Q & I). cbn [fst] in Q. subst p'. rewrite (A p c I). symmetry. apply A'. now apply H.
  - rewrite B by auto. rewrite B'; auto. intros I'. apply I. apply in_map_iff in I'. destruct I' as (x & Q & I'). apply in_map_iff. exists x. split; auto. now apply H.
Qed.
Theorem build_same : forall legacy fuel K K', (forall k, In k K -> bytes k) -> (forall k, In k K' -> bytes k) -> same_set (map c_string K) (map c_string K') -> sm_build legacy fuel K = sm_build legacy fuel K'.
Proof.
  intros legacy fuel K K' B B' HS. destruct K as [|k0 K].
  { assert (E : map c_string K' = []) by (apply (same_nil _ (map c_string [])); auto). apply map_eq_nil in E. subst. reflexivity. }
  destruct K' as [|k0' K']. { assert (E : map c_string (k0 :: K) = []) by (apply (same_nil _ (map c_string [])); auto; now apply same_sym). discriminate. }
  assert (QQ : forall KK, KK <> [] -> (forall k, In k KK -> bytes k) -> QWf 0 [(0, KK)]) by (intros KK NK BK x ks [X|[]]; injection X as <- <-; split; auto; intros k Hk; split; [lia|auto]).
  assert (SS : forall KK x w, Sem 0 [(0, KK)] x w <-> x = 0 /\ In w (map c_string KK)).
  { intros KK x w. split; [intros (ks & k & [X|[]] & I & ->); injection X as <- <-; split; auto; cbn [skipn]; now apply in_map|]. intros (-> & H). apply in_map_iff in H. destruct H as (k & <- & H). exists KK, k. split; [now left|auto]. }
  unfold sm_build. destruct (levels_same legacy fuel 0 0 1 [0; 1] [] [(0, 94%N)] [(0, 94%N)] [(0, k0 :: K)] [(0, k0' :: K')]) as [(-> & ->)|(h & co & R & R' & -> & -> & SR & FR & LR)]; auto; try (apply QQ; auto; discriminate).
  - intros x w. rewrite !SS. split; intros (-> & H); (split; [auto|now apply HS]).
  - intros x w H. apply SS in H. lia.
  - intros x. reflexivity.
  - intros p c c' [X|[]] [Y|[]]. congruence.
  - intros p c [X|[]]. injection X as <- _. lia.
  - cbn [bind]. rewrite (writes_same R R'); auto. intros p c H. rewrite repeat_length. eapply LR; eauto.
Qed.
