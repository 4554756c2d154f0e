(** Samc: searching a string. *)
From Coq Require Import List NArith ZArith Arith Bool Lia Sorted.
From Verif Require Import Base Spec5 LcpProof SamcModel SamcPack SamcLevel SamcTree SamcProof.
Import ListNotations.
Local Open Scope nat_scope.

Lemma posC_at : forall C p c, length p < length C -> posC C (p ++ [c]) = posC C p + N.to_nat (nth (N.to_nat c) (nth (length p) C []) 0%N).
Proof. induction C as [|r C IH]; intros [|x p] c H; cbn [length] in *; try lia; cbn [app posC nth]; [lia|]. rewrite IH by lia. lia. Qed.
Lemma last_nth : forall (l : list nat) d, l <> [] -> last l d = nth (length l - 1) l d.
Proof.
  induction l as [|x l IH]; intros d H; [congruence|]. destruct l as [|y l]; [reflexivity|]. change (last (x :: y :: l) d) with (last (y :: l) d). rewrite IH by discriminate. cbn [length]. replace (S (S (length l)) - 1) with (S (S (length l) - 1)) by lia. reflexivity.
Qed.
Lemma writes_ok : forall (W : list (nat * N)) s0, NoDup (map fst W) -> (forall x c, In (x, c) W -> x < length s0) ->
  exists s, foldM (fun s w => lset s (fst w) (snd w)) W s0 = Ok s /\ length s = length s0 /\ (forall x c, In (x, c) W -> nth x s 0%N = c) /\ (forall x, ~ In x (map fst W) -> nth x s 0%N = nth x s0 0%N).
Proof.
  induction W as [|[x c] W IH]; intros s0 ND H.
  { exists s0. split; [reflexivity|]. split; [reflexivity|]. split; [intros x c []|auto]. }
  cbn [map fst] in ND. inversion ND as [|a b N1 N2]; subst. cbn [foldM fst snd]. rewrite lset_Ok by (apply (H x c); left; reflexivity). cbn [bind].
  destruct (IH (upd s0 x c) N2) as (s & E & Ls & I1 & I2). { intros y b Y. rewrite upd_length. apply (H y b). right. exact Y. }
  exists s. rewrite upd_length in Ls. split; auto. split; auto. assert (XL : x < length s0) by (apply (H x c); left; reflexivity). split.
  - intros y b [Y|Y]; [|auto]. injection Y as <- <-. rewrite I2 by exact N1. rewrite nth_upd, Nat.eqb_refl. destruct (Nat.ltb_spec x (length s0)); [reflexivity|lia].
  - intros y Y. cbn [map fst In] in Y. rewrite I2 by tauto. rewrite nth_upd. destruct (Nat.eqb_spec y x); [subst; tauto|reflexivity].
Qed.

Lemma root_in : forall K, K <> [] -> node K [].
Proof. intros K H. apply node_spec. destruct K as [|k K']; [congruence|]. exists k. left. reflexivity. Qed.
Section Accept.
Variable K : list (list N).
Hypothesis HS : StronglySorted lex_lt K.
Hypothesis HB : forall k, In k K -> Forall (fun c => (0 < c < 256)%N) k.
Hypothesis HN : K <> [].
Notation node := (node K).
Notation edgeP := (edgeP K).
Definition full (d : nat) : Prop := forall i, i < d -> exists p, length p = i /\ node p.

Lemma levels_ok : forall legacy fuel d H C W Ls, Lev K d H C W Ls -> full d -> (forall k, In k K -> length k < d + fuel) ->
  exists L H' C' W', build_levels legacy fuel d (nth d H 0) (nth (S d) H 0) H C W (queue_of K C Ls) = Ok (H', C', W') /\ Lev K L H' C' W' [] /\ full L.
Proof using HS HB.
  intros legacy. induction fuel as [|fuel IH]; intros d H C W Ls L F HF.
  - destruct Ls as [|p Ls]; [exists d, H, C, W; auto|]. exfalso. destruct (proj1 (l_in _ _ _ _ _ _ L p) (or_introl eq_refl)) as [P1 P2]. apply node_spec in P2. destruct P2 as (r & P2). apply HF in P2. rewrite app_length in P2. lia.
  - destruct Ls as [|p Ls]; [exists d, H, C, W; auto|].
    assert (NE : p :: Ls <> []) by discriminate. destruct (step_ok K HS HB legacy d H C W _ L NE) as (E & st & Ls' & A1 & A2 & A3 & A4).
    assert (F' : full (S d)). { intros i Hi. destruct (Nat.eq_dec i d) as [->|Q]; [|apply F; lia]. exists p. apply (l_in _ _ _ _ _ _ L). left. reflexivity. }
    destruct (IH (S d) _ _ _ _ A4 F') as (L' & H' & C' & W' & B). { intros k Hk. specialize (HF k Hk). lia. }
    exists L', H', C', W'. assert (LH := l_len _ _ _ _ _ _ L). rewrite (app_nth1 H) in B by lia. rewrite (app_nth2 H _ 0) in B by lia. replace (S (S d) - length H) with 0 in B by lia. cbn [nth] in B.
    cbn [build_levels]. rewrite match_nonempty by (cbn [queue_of map]; discriminate).
    rewrite A1. cbn [bind]. rewrite A2. cbn [bind]. rewrite A3. exact B.
Qed.

Record Built (L : nat) (H : list nat) (C : list (list N)) (W : list (nat * N)) (s : samc) : Prop := {
  b_lev : Lev K L H C W [];
  b_full : full L;
  b_head : sm_head s = H;
  b_codes : sm_codes s = C;
  b_len : length (sm_storage s) = nth (S L) H 0;
  b_wr : forall x c, In (x, c) W -> nth x (sm_storage s) 0%N = c;
  b_free : forall x, x < nth (S L) H 0 -> ~ In x (map fst W) -> nth x (sm_storage s) 0%N = 255%N
}.
Theorem build_ok : forall legacy fuel, (forall k, In k K -> length k < fuel) -> exists s L H C W, sm_build legacy fuel K = Ok s /\ Built L H C W s.
Proof using HS HB HN.
  intros legacy fuel HF. assert (L0 : Lev K 0 [0; 1] [] [(0, 94%N)] [[]]).
  { split; cbn [length]; auto.
    - intros i Hi. replace i with 0 by lia. cbn [nth]. lia.
    - constructor; [intros []|constructor].
    - intros p. split; [intros [<-|[]]; split; auto|intros [P _]; destruct p; [left; reflexivity|discriminate]]. apply node_spec. destruct K as [|k K']; [congruence|]. exists k. left. reflexivity.
    - intros p Hp _. destruct p; [|cbn [length] in Hp; lia]. cbn. lia.
    - intros p q Hpq Hp _ _ _. destruct p; [|cbn [length] in Hp; lia]. destruct q; [reflexivity|discriminate].
    - intros p c Hp. lia.
    - intros x c [X|[]]. injection X as <- <-. auto.
    - cbn. constructor; [intros []|constructor].
    - intros x c [X|[]]. injection X as <- <-. cbn. lia.
    - intros i Hi. lia. }
  destruct (levels_ok legacy fuel 0 _ _ _ _ L0) as (L & H & C & W & B & LV & F). { intros i Hi. lia. } { exact HF. }
  assert (QE : queue_of K [] [[]] = [(0, K)]). { unfold queue_of. cbn [map posC]. do 2 f_equal. unfold sub. apply filter_all. intros k _. reflexivity. }
  rewrite QE in B. cbn [nth] in B. unfold sm_build. rewrite B. cbn [bind].
  assert (LH := l_len _ _ _ _ _ _ LV).
  assert (LA : last H 0 = nth (S L) H 0). { rewrite last_nth; [f_equal; lia|]. intros ->. cbn [length] in LH. lia. }
  rewrite LA. destruct (writes_ok W (repeat 255%N (nth (S L) H 0))) as (s & E & Ls & I1 & I2). { apply (l_wnd _ _ _ _ _ _ LV). } { intros x c X. rewrite repeat_length. apply (l_wlt _ _ _ _ _ _ LV x c X). }
  rewrite E. cbn [bind]. exists {| sm_storage := s; sm_codes := C; sm_head := H |}, L, H, C, W. split; [reflexivity|]. split; cbn [sm_storage sm_codes sm_head]; auto.
  - rewrite Ls. apply repeat_length.
  - intros x X Y. rewrite I2 by exact Y. apply nth_repeat_lt. exact X.
Qed.

Section Search.
Variables (L : nat) (H : list nat) (C : list (list N)) (W : list (nat * N)) (s : samc).
Hypothesis B : Built L H C W s.
Let LV := b_lev _ _ _ _ _ B.
Notation hd i := (nth i H 0).
Definition alive (x d : nat) : Prop := hd d <= x /\ x < hd (S d).
Definition code (d : nat) (c : N) : nat := N.to_nat (nth (N.to_nat c) (nth d C []) 0%N).
Lemma heads_mono : forall i j, i <= j -> j <= S L -> hd i <= hd j.
Proof using B HB HN. intros i j. induction j as [|j IH]; intros X Y; [replace i with 0 by lia; lia|]. destruct (Nat.eq_dec i (S j)) as [->|Q]; [lia|]. pose proof (l_inc _ _ _ _ _ _ LV j ltac:(lia)). specialize (IH ltac:(lia) ltac:(lia)). lia. Qed.
Lemma alive_level : forall x i j, alive x i -> alive x j -> i <= L -> j <= L -> i = j.
Proof using B HB HN.
  intros x i j [A1 A2] [B1 B2] Hi Hj. destruct (Nat.lt_trichotomy i j) as [Q|[Q|Q]]; auto; exfalso; [pose proof (heads_mono (S i) j ltac:(lia) ltac:(lia))|pose proof (heads_mono (S j) i ltac:(lia) ltac:(lia))]; lia.
Qed.
Lemma node_short : forall p, node p -> length p < L.
Proof using B HB HN.
  intros p P. destruct (Nat.lt_ge_cases (length p) L) as [|Q]; auto. exfalso. apply node_spec in P. destruct P as (r & P).
  destruct (proj2 (l_in _ _ _ _ _ _ LV (firstn L p))). split; [rewrite firstn_length; lia|]. apply node_spec. exists (skipn L p ++ r). rewrite app_assoc, firstn_skipn. exact P.
Qed.
Lemma code_ok : forall d c, d < L -> (c < 256)%N -> sm_code s d c = Ok (nth (N.to_nat c) (nth d C []) 0%N).
Proof using B HB HN.
  intros d c Hd Hc. unfold sm_code. rewrite (b_codes _ _ _ _ _ B). rewrite (lget_nth _ C d []) by (rewrite (l_clen _ _ _ _ _ _ LV); exact Hd). cbn [bind]. apply lget_nth. destruct (l_rows _ _ _ _ _ _ LV d Hd) as [R _]. rewrite R. lia.
Qed.
Lemma code_ub : forall d c, L <= d -> sm_code s d c = UB.
Proof using B HB HN. intros d c Hd. unfold sm_code. rewrite (b_codes _ _ _ _ _ B). replace (lget C d) with (@UB (list N)); [reflexivity|]. symmetry. apply lget_UB. rewrite (l_clen _ _ _ _ _ _ LV). exact Hd. Qed.
Lemma range_ok : forall x d, d <= L -> in_range s x d = Ok ((hd d <=? x) && (x <? hd (S d))).
Proof using B HB HN.
  intros x d Hd. unfold in_range, sm_headat. rewrite (b_head _ _ _ _ _ B). pose proof (l_len _ _ _ _ _ _ LV) as LH. rewrite (lget_nth _ H d 0) by lia. cbn [bind]. destruct (hd d <=? x); [|reflexivity]. rewrite (lget_nth _ H (d + 1) 0) by lia. cbn [bind andb]. replace (d + 1) with (S d) by lia. reflexivity.
Qed.
Lemma check_ok : forall x d, alive x d -> d <= L -> sm_check s x = Ok (nth x (sm_storage s) 0%N).
Proof using B HB HN. intros x d [A1 A2] Hd. unfold sm_check. apply lget_nth. rewrite (b_len _ _ _ _ _ B). pose proof (heads_mono (S d) (S L) ltac:(lia) ltac:(lia)). lia. Qed.

Lemma desc_cons : forall x d c q, d < L -> (c < 256)%N ->
  (sm_descend s x d (c :: q) = Ok None /\ ~ (alive (x + code d c) (S d) /\ nth (x + code d c) (sm_storage s) 0%N = c)) \/
  (sm_descend s x d (c :: q) = sm_descend s (x + code d c) (S d) q /\ alive (x + code d c) (S d) /\ nth (x + code d c) (sm_storage s) 0%N = c).
Proof using B HB HN.
  intros x d c q Hd Hc. cbn [sm_descend]. rewrite code_ok by auto. cbn [bind]. fold (code d c). replace (d + 1) with (S d) by lia. rewrite range_ok by lia. cbn [bind].
  destruct (Nat.leb_spec (hd (S d)) (x + code d c)) as [G1|G1]; cbn [andb negb]; [|left; split; auto; unfold alive; lia].
  destruct (Nat.ltb_spec (x + code d c) (hd (S (S d)))) as [G2|G2]; cbn [andb negb]; [|left; split; auto; unfold alive; lia].
  rewrite (check_ok _ (S d)) by (unfold alive; lia). cbn [bind]. destruct (N.eqb_spec (nth (x + code d c) (sm_storage s) 0%N) c) as [Q|Q]; cbn [negb].
  - right. split; auto. split; [unfold alive; lia|exact Q].
  - left. split; auto. tauto.
Qed.
Lemma pos_snoc : forall p c, length p < L -> posC C (p ++ [c]) = posC C p + code (length p) c.
Proof using B HB HN. intros p c Hp. apply posC_at. rewrite (l_clen _ _ _ _ _ _ LV). exact Hp. Qed.
(** a slot whose label matches was written for an edge, or is a free slot *)
Lemma match_edge : forall x d c, d < L -> alive x d -> alive (x + code d c) (S d) -> nth (x + code d c) (sm_storage s) 0%N = c ->
  (exists p, length p = d /\ edgeP p c /\ x = posC C p) \/ (c = 255%N /\ ~ In (x + code d c) (map fst W)).
Proof using B HB HN.
  intros x d c Hd Ax Ay E. destruct (in_dec Nat.eq_dec (x + code d c) (map fst W)) as [I|I].
  - left. apply in_map_iff in I. destruct I as ([y b] & Y & I). cbn [fst] in Y. subst y. assert (b = c) by (rewrite <- E; symmetry; apply (b_wr _ _ _ _ _ B _ _ I)). subst b.
    apply (l_wr _ _ _ _ _ _ LV) in I. destruct I as [[I _]|(p & P1 & P2 & P3)].
    + exfalso. destruct Ay as [A1 A2]. pose proof (heads_mono 1 (S d) ltac:(lia) ltac:(lia)). destruct (l_h _ _ _ _ _ _ LV). lia.
    + destruct (l_edge _ _ _ _ _ _ LV p c P1 P2) as [R _]. rewrite <- P3 in R. assert (S (length p) = S d) by (apply (alive_level (x + code d c)); auto; lia). assert (length p = d) by lia.
      exists p. split; auto. split; auto. rewrite pos_snoc in P3 by lia. subst d. lia.
  - right. split; auto. rewrite <- E. apply (b_free _ _ _ _ _ B); auto. destruct Ay as [A1 A2]. pose proof (heads_mono (S (S d)) (S L) ltac:(lia) ltac:(lia)). lia.
Qed.
Lemma used : forall x d c, d < L -> alive x d -> alive (x + code d c) (S d) -> ~ (forall p, length p = d -> ~ edgeP p c).
Proof using B HB HN. intros x d c Hd [A1 A2] [B1 B2] U. apply (l_rows _ _ _ _ _ _ LV d Hd) in U. unfold code in *. rewrite U in *. lia. Qed.
Definition ghost (x d : nat) : Prop := alive x d /\ forall p, length p = d -> node p -> posC C p <> x.
Lemma free_ghost : forall y d, alive y (S d) -> ~ In y (map fst W) -> ghost y (S d).
Proof using B HB HN.
  intros y d A I. split; auto. intros p Lp Np E. destruct (exists_last (l := p)) as (q & c & ->). { intros ->. discriminate. } pose proof (node_short _ Np) as SH. rewrite app_length in *. cbn [length] in *.
  apply node_snoc in Np; [|exact HB]. apply I. destruct (l_edge _ _ _ _ _ _ LV q c ltac:(lia) (proj2 Np)) as [_ X]. apply in_map_iff. exists (posC C (q ++ [c]), c). auto.
Qed.
Lemma free_short : forall x d, d < L -> alive x d -> alive (x + code d 255) (S d) -> S d < L.
Proof using B HB HN.
  intros x d Hd A1 A2. destruct (Nat.lt_ge_cases (S d) L) as [|Q]; auto. exfalso. apply (used _ _ _ Hd A1 A2). intros p Lp E. assert (X : node (p ++ [255%N])). { apply node_snoc; auto. split; [discriminate|exact E]. }
  apply node_short in X. rewrite app_length in X. cbn [length] in X. lia.
Qed.
Lemma descend_ghost : forall q x d, Forall (fun c => (c < 256)%N) q -> ghost x d -> d < L ->
  sm_descend s x d q = Ok None \/ exists y, sm_descend s x d q = Ok (Some y) /\ ghost y (d + length q) /\ d + length q < L.
Proof using B HB HN.
  induction q as [|c q IH]; intros x d FB G Hd. { right. exists x. cbn [sm_descend length]. rewrite Nat.add_0_r. auto. }
  inversion FB as [|a b F1 F2]; subst. destruct (desc_cons x d c q Hd F1) as [[E _]|(E & A & M)]; [left; exact E|]. rewrite E. destruct G as [G1 G2].
  destruct (match_edge x d c Hd G1 A M) as [(p & P1 & P2 & P3)|[-> P]].
  - exfalso. apply (G2 p P1); [apply (edge_node K p c P2)|congruence].
  - cbn [length]. replace (d + S (length q)) with (S d + length q) by lia. apply IH; auto; [apply free_ghost; auto|apply (free_short x d); auto].
Qed.
Lemma alive_node : forall p, node p -> alive (posC C p) (length p).
Proof using B HB HN. intros p P. pose proof (node_short p P). apply (l_rng _ _ _ _ _ _ LV); auto. lia. Qed.
Lemma edge_match : forall p c, edgeP p c -> alive (posC C p + code (length p) c) (S (length p)) /\ nth (posC C p + code (length p) c) (sm_storage s) 0%N = c.
Proof using B HB HN.
  intros p c P. pose proof (node_short p (edge_node K p c P)) as SH. rewrite <- pos_snoc by exact SH. destruct (l_edge _ _ _ _ _ _ LV p c SH P) as [R I]. split; [exact R|]. apply (b_wr _ _ _ _ _ B). exact I.
Qed.
Lemma leaf_ghost : forall p, In p K -> ghost (posC C p + code (length p) 0) (S (length p)).
Proof using B HB HN.
  intros p P. assert (E : edgeP p 0%N) by (left; auto). destruct (edge_match p 0%N E) as [A M]. split; [exact A|]. intros q Lq Nq X.
  destruct (exists_last (l := q)) as (r & c & ->). { intros ->. discriminate. } pose proof (node_short _ Nq) as SH. rewrite app_length in *. cbn [length] in *. apply node_snoc in Nq; [|exact HB]. destruct Nq as [N1 N2].
  destruct (edge_match r c N2) as [_ M2]. rewrite <- pos_snoc in M2 by lia. rewrite X in M2. rewrite M in M2. congruence.
Qed.
Lemma descend_real : forall q p, node p -> Forall (fun c => (c < 256)%N) q ->
  (node (p ++ q) /\ sm_descend s (posC C p) (length p) q = Ok (Some (posC C (p ++ q)))) \/
  (~ node (p ++ q) /\ (sm_descend s (posC C p) (length p) q = Ok None \/ exists y, sm_descend s (posC C p) (length p) q = Ok (Some y) /\ ghost y (length (p ++ q)) /\ length (p ++ q) < L)) \/
  (exists k r, In k K /\ S (length k) = L /\ p ++ q = k ++ 0%N :: r /\ (sm_descend s (posC C p) (length p) q = UB \/ exists y, sm_descend s (posC C p) (length p) q = Ok (Some y) /\ length (p ++ q) = L)).
Proof using B HB HN.
  induction q as [|c q IH]; intros p NP FB. { left. rewrite app_nil_r. split; auto. }
  inversion FB as [|a b F1 F2]; subst. pose proof (node_short p NP) as SH. pose proof (alive_node p NP) as AL.
  assert (PQ : p ++ c :: q = (p ++ [c]) ++ q) by (rewrite <- app_assoc; reflexivity).
  assert (LQ : length (p ++ c :: q) = S (length p) + length q) by (rewrite app_length; cbn [length]; lia).
  assert (NN : ~ node (p ++ [c]) -> ~ node (p ++ c :: q)). { intros X Y. apply X. apply node_spec in Y. destruct Y as (r & Y). apply node_spec. exists (q ++ r). rewrite PQ, <- app_assoc in Y. exact Y. }
  destruct (desc_cons (posC C p) (length p) c q SH F1) as [[E X]|(E & A & M)].
  - right. left. split; [|left; exact E]. apply NN. intros Y. apply node_snoc in Y; [|exact HB]. apply X. apply edge_match. tauto.
  - destruct (match_edge _ _ _ SH AL A M) as [(p' & P1 & P2 & P3)|[-> P]].
    + assert (p' = p). { apply (l_inj _ _ _ _ _ _ LV); auto; try lia. apply (edge_node K p' c P2). } subst p'. destruct (N.eq_dec c 0) as [->|NZ].
      * assert (IK : In p K) by (destruct P2 as [[_ P2]|[P2 _]]; congruence). assert (NS : ~ node (p ++ 0%N :: q)) by (apply NN; intros Y; apply node_snoc in Y; [|exact HB]; tauto).
        rewrite E. destruct (Nat.eq_dec (S (length p)) L) as [Q|Q].
        -- right. right. exists p, q. split; auto. split; auto. split; auto. destruct q as [|c' q].
           ++ right. cbn [sm_descend]. eexists. split; [reflexivity|]. rewrite app_length. cbn [length]. lia.
           ++ left. cbn [sm_descend]. rewrite code_ub by lia. reflexivity.
        -- right. left. split; [exact NS|]. rewrite LQ. apply descend_ghost; [exact F2|apply leaf_ghost; exact IK|lia].
      * assert (Np' : node (p ++ [c])) by (apply node_snoc; auto). rewrite PQ. rewrite E. rewrite <- pos_snoc by exact SH. replace (S (length p)) with (length (p ++ [c])) by (rewrite app_length; cbn [length]; lia). apply IH; auto.
    + right. left. pose proof (free_ghost _ _ A P) as G. split.
      * apply NN. intros Y. apply (proj2 G (p ++ [255%N])); [rewrite app_length; cbn [length]; lia|exact Y|apply pos_snoc; exact SH].
      * rewrite E, LQ. apply descend_ghost; auto. apply (free_short (posC C p)); auto.
Qed.

Lemma longest_spec : forall k, longest_key K k <-> In k K /\ S (length k) = L.
Proof using B HB HN.
  intros k. split.
  - intros [I M]. split; auto. pose proof (node_short k) as SH. assert (X : length k < L). { apply SH. apply node_spec. exists []. rewrite app_nil_r. exact I. }
    destruct (b_full _ _ _ _ _ B (L - 1) ltac:(lia)) as (p & P1 & P2). apply node_spec in P2. destruct P2 as (r & P2). apply M in P2. rewrite app_length in P2. lia.
  - intros [I M]. split; auto. intros k' I'. assert (X : length k' < L). { apply node_short. apply node_spec. exists []. rewrite app_nil_r. exact I'. } lia.
Qed.
Lemma in_node : forall q, In q K -> node q.
Proof. clear. intros q Q. apply node_spec. exists []. rewrite app_nil_r. exact Q. Qed.
Lemma root : node [].
Proof using HN. apply root_in. exact HN. Qed.
Lemma term_in : forall q, In q K -> sm_terminal s q = Ok (Some (posC C (q ++ [0%N]))).
Proof using B HB HN.
  intros q Q. pose proof (in_node q Q) as NQ. pose proof (node_short q NQ) as SH. unfold sm_terminal.
  assert (FB : Forall (fun c => (c < 256)%N) q). { eapply Forall_impl; [|apply (HB q Q)]. cbv beta. intros. lia. }
  assert (NZ : ~ In 0%N q). { intros X. pose proof (HB q Q) as Y. rewrite Forall_forall in Y. specialize (Y _ X). lia. }
  destruct (descend_real q [] root FB) as [[_ E]|[[X _]|(k & r & _ & _ & X & _)]]; cbn [app length posC] in *.
  - rewrite E. cbn [bind]. rewrite code_ok by (auto; reflexivity). cbn [bind]. fold (code (length q) 0).
    replace (length q + 1) with (S (length q)) by lia. rewrite range_ok by lia. cbn [bind]. assert (EQ : edgeP q 0%N) by (left; auto). destruct (edge_match q 0%N EQ) as [A M]. pose proof A as [A1 A2].
    destruct (Nat.leb_spec (hd (S (length q))) (posC C q + code (length q) 0)); [|lia]. destruct (Nat.ltb_spec (posC C q + code (length q) 0) (hd (S (S (length q))))); [|lia]. cbn [andb negb].
    rewrite (check_ok _ (S (length q))) by (auto; lia). cbn [bind]. rewrite M. cbn [N.eqb]. rewrite pos_snoc by exact SH. reflexivity.
  - contradiction.
  - exfalso. apply NZ. rewrite X. apply in_or_app. right. left. reflexivity.
Qed.
Lemma terminal_none : forall x (q : list N), length q < L -> alive x (length q) -> (forall p, length p = length q -> In p K -> posC C p <> x) ->
  (do code <- sm_code s (length q) 0%N; let terminal := x + N.to_nat code in do ok <- in_range s terminal (length q + 1); if negb ok then Ok None else do b <- sm_check s terminal; Ok (if (b =? 0)%N then Some terminal else None)) = Ok None.
Proof using B HB HN.
  intros x q SH A NP. rewrite code_ok by (auto; reflexivity). cbn [bind]. cbv zeta. fold (code (length q) 0). replace (length q + 1) with (S (length q)) by lia. rewrite range_ok by lia. cbn [bind].
  destruct (Nat.leb_spec (hd (S (length q))) (x + code (length q) 0)) as [G1|G1]; cbn [andb negb]; [|reflexivity].
  destruct (Nat.ltb_spec (x + code (length q) 0) (hd (S (S (length q))))) as [G2|G2]; cbn [andb negb]; [|reflexivity].
  assert (A' : alive (x + code (length q) 0) (S (length q))) by (unfold alive; lia). rewrite (check_ok _ (S (length q))) by (auto; lia). cbn [bind].
  destruct (N.eqb_spec (nth (x + code (length q) 0) (sm_storage s) 0%N) 0) as [E|E]; [|reflexivity]. exfalso.
  destruct (match_edge x (length q) 0%N SH A A' E) as [(p & P1 & P2 & P3)|[X _]]; [|discriminate]. destruct P2 as [[_ P2]|[P2 _]]; [|congruence]. apply (NP p P1 P2). congruence.
Qed.
Lemma term_out : forall q, Forall (fun c => (c < 256)%N) q -> ~ In q K -> (forall k r, longest_key K k -> q <> k ++ 0%N :: r) -> sm_terminal s q = Ok None.
Proof using B HB HN.
  intros q FB Q NM. unfold sm_terminal. destruct (descend_real q [] root FB) as [[NQ E]|[[X E]|(k & r & K1 & K2 & X & _)]]; cbn [app length posC] in *.
  - rewrite E. cbn [bind]. apply terminal_none; [apply node_short; exact NQ|apply alive_node; exact NQ|].
    intros p Lp Ip Y. pose proof (node_short q NQ). assert (p = q). { apply (l_inj _ _ _ _ _ _ LV); auto; try lia. apply in_node. exact Ip. } subst p. contradiction.
  - destruct E as [E|(y & E & G & SH)]; rewrite E; cbn [bind]; [reflexivity|].
    apply terminal_none; [exact SH|apply G|]. intros p Lp Ip. apply (proj2 G p Lp). apply in_node. exact Ip.
  - exfalso. apply (NM k r); auto. apply longest_spec. auto.
Qed.
Lemma term_ub : forall q k r, Forall (fun c => (c < 256)%N) q -> longest_key K k -> q = k ++ 0%N :: r -> sm_terminal s q = UB.
Proof using B HB HN.
  intros q k r FB Kl EQ. apply longest_spec in Kl. destruct Kl as [K1 K2]. unfold sm_terminal. destruct (descend_real q [] root FB) as [[NQ E]|[[X E]|(k' & r' & K1' & K2' & X & E)]]; cbn [app length posC] in *.
  - apply node_short in NQ. subst q. rewrite app_length in NQ. cbn [length] in NQ. lia.
  - exfalso. clear X. assert (Z : length q < L -> False). { intros Z. subst q. rewrite app_length in Z. cbn [length] in Z. lia. } destruct E as [E|(y & _ & _ & E)]; [|auto].
    (* the walk along k succeeds *)
    clear Z. subst q.
    assert (W1 : forall a p, node (p ++ a) -> Forall (fun c => (c < 256)%N) a -> sm_descend s (posC C p) (length p) (a ++ 0%N :: r) = sm_descend s (posC C (p ++ a)) (length (p ++ a)) (0%N :: r)).
    { clear E FB K1 K2. induction a as [|c a IH]; intros p Na Fa; [rewrite app_nil_r; reflexivity|]. inversion Fa; subst. assert (Nc : node (p ++ [c])). { apply node_spec in Na. destruct Na as (t & Na). apply node_spec. exists (a ++ t). rewrite <- app_assoc in *. exact Na. }
      apply node_snoc in Nc as Nc'; [|exact HB]. destruct (edge_match p c (proj2 Nc')) as [A M]. pose proof (node_short _ Nc) as SH. rewrite app_length in SH. cbn [length] in SH.
      cbn [app]. destruct (desc_cons (posC C p) (length p) c (a ++ 0%N :: r) ltac:(lia) ltac:(assumption)) as [[_ X]|(X & _)]; [tauto|]. rewrite X. rewrite <- pos_snoc by lia.
      replace (S (length p)) with (length (p ++ [c])) by (rewrite app_length; cbn [length]; lia). rewrite IH; [rewrite <- !app_assoc; reflexivity| |assumption]. rewrite <- app_assoc. exact Na. }
    specialize (W1 k [] (in_node k K1)). cbn [app length posC] in W1. rewrite W1 in E.
    2:{ apply Forall_app in FB. tauto. }
    assert (EK : edgeP k 0%N) by (left; auto). destruct (edge_match k 0%N EK) as [A M]. destruct (desc_cons (posC C k) (length k) 0%N r ltac:(lia) ltac:(reflexivity)) as [[_ X]|(X & _)]; [tauto|]. rewrite X in E.
    destruct r as [|c r]; [cbn [sm_descend] in E; discriminate|]. cbn [sm_descend] in E. rewrite code_ub in E by lia. discriminate.
  - destruct E as [E|(y & E & EL)]; rewrite E; cbn [bind]; [reflexivity|]. rewrite code_ub by lia. reflexivity.
Qed.
End Search.
End Accept.
