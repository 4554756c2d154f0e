(** What the readers make of streams of any length. *)
From Coq Require Import List NArith ZArith Arith Bool Lia.
From Verif Require Import Base Spec Spec13 BitUtilModel BitVectorModel SuccinctModel FitVectorModel DacModel WaveletModel StreamModel StreamProof SamcModel StringStreamModel ShortStreamModel.
Import ListNotations.
Local Open Scope nat_scope.

(** [a] is read exactly from the streams which start with its image, and from those which miss at most the end of [tl a] *)
Definition exact {A} (p : sreader A) (w : A -> list N) (F : A -> Prop) (tl : A -> list N) : Prop :=
  (forall a, F a -> length (tl a) <= length (w a)) /\
  forall bs, Forall byte bs -> (forall a st, p (bs, true) = Ok (a, st) <-> F a /\ reads bs (w a) (tl a) st) /\ (p (bs, true) = UB \/ exists r, p (bs, true) = Ok r).
Definition strict {A} (p : sreader A) : Prop := forall bs, p (bs, false) = UB.

Lemma strict_bind : forall A B (p : sreader A) (f : A -> sreader B), strict p -> strict (sbind p f).
Proof. intros A B p f H bs. unfold sbind. rewrite H. reflexivity. Qed.
Lemma strict_val : forall n, strict (s_val n).
Proof. intros n bs. reflexivity. Qed.
Lemma strict_size : strict s_size.
Proof. apply strict_bind, strict_val. Qed.
Lemma strict_vec : forall A sz enc dec (d : A) old, strict (s_vec sz enc dec d old).
Proof. intros. apply strict_bind, strict_size. Qed.
Lemma strict_ints : forall n old, strict (s_ints n old).
Proof. intros. apply strict_vec. Qed.

Lemma exact_ext : forall A (p : sreader A) w F tl w' F' tl', exact p w F tl -> (forall a, F a <-> F' a) -> (forall a, F a -> w a = w' a) -> (forall a, F a -> tl a = tl' a) -> exact p w' F' tl'.
Proof.
  intros A p w F tl w' F' tl' [L H] HF HW HT. split.
  - intros a Fa. apply HF in Fa. rewrite <- HW, <- HT by auto. auto.
  - intros bs B. destruct (H bs B) as [E C]. split; auto. intros a st. rewrite E. split; intros [X Y].
    + split; [apply HF; auto|]. rewrite <- HW, <- HT by auto. auto.
    + apply HF in X. split; auto. rewrite HW, HT by auto. auto.
Qed.
Lemma exact_map : forall A B (p : sreader A) w F tl (g : A -> B) (h : B -> A), exact p w F tl -> (forall a, h (g a) = a) ->
  exact (rd a <- p; sret (g a)) (fun b => w (h b)) (fun b => F (h b) /\ g (h b) = b) (fun b => tl (h b)).
Proof.
  intros A B p w F tl g h [L H] HG. split; [intros b [X _]; apply L; auto|]. intros bs BB. destruct (H bs BB) as [E C]. unfold sbind. split.
  - intros b st. split.
    + intros X. apply bind_Ok_inv in X. destruct X as ([a s] & X1 & X2). cbn [fst snd] in X2. unfold sret in X2. assert (b = g a /\ st = s) as [-> ->] by (split; congruence). apply E in X1. rewrite HG. tauto.
    + intros [[X1 X2] X3]. assert (Y : p (bs, true) = Ok (h b, st)) by (apply E; auto). rewrite Y. cbn [bind fst snd]. unfold sret. rewrite X2. reflexivity.
  - destruct C as [->|([a s] & ->)]; [left; reflexivity|right; eexists; reflexivity].
Qed.
Lemma bytes_app : forall a b, Forall byte (a ++ b) -> Forall byte a /\ Forall byte b.
Proof. intros a b H. apply Forall_app in H. exact H. Qed.
Lemma exact_bind : forall A B (p : sreader A) (f : A -> sreader B) w1 F1 t1 (pr : B -> A) w2 F2 t2, exact p w1 F1 t1 -> (forall a, F1 a -> exact (f a) w2 (fun b => F2 b /\ pr b = a) t2) -> (forall a, F1 a -> t1 a = []) \/ (forall a, strict (f a)) ->
  exact (sbind p f) (fun b => w1 (pr b) ++ w2 b) (fun b => F1 (pr b) /\ F2 b) t2.
Proof.
  intros A B p f w1 F1 t1 pr w2 F2 t2 [L1 H1] HF SF0. assert (SF : forall a k bs, F1 a -> 0 < k <= length (t1 a) -> f a (bs, false) = UB). { intros a k bs Fa K. destruct SF0 as [Z|Z]; [rewrite Z in K by auto; cbn [length] in K; lia|apply Z]. } clear SF0. split.
  - intros b [X1 X2]. destruct (HF _ X1) as [L2 _]. rewrite app_length. specialize (L2 b (conj X2 eq_refl)). lia.
  - intros bs BB. destruct (H1 bs BB) as [E C]. unfold sbind. split.
    + intros b st. split.
      * intros X. apply bind_Ok_inv in X. destruct X as ([a s] & X1 & X2). cbn [fst snd] in X2. apply E in X1. destruct X1 as [Fa [(rest & R1 & ->)|(k & K & _ & ->)]]; [|rewrite (SF a k) in X2 by auto; discriminate].
        subst bs. apply bytes_app in BB. destruct BB as [_ BR]. destruct (HF a Fa) as [_ H2]. destruct (H2 rest BR) as [E2 _]. apply E2 in X2. destruct X2 as [[Fb <-] R]. split; auto.
        destruct R as [(r2 & -> & ->)|(k & K & KW & ->)]; [left; exists r2; split; [apply app_assoc|auto]|]. right. exists k. split; auto. split; auto. rewrite <- app_assoc, KW. auto.
      * intros [[Fa Fb] R]. destruct (HF _ Fa) as [L2 H2]. specialize (L2 b (conj Fb eq_refl)).
        assert (X : exists rest, bs = w1 (pr b) ++ rest /\ reads rest (w2 b) (t2 b) st).
        { destruct R as [(r & -> & ->)|(k & K & KW & ->)]; [exists (w2 b ++ r); split; [symmetry; apply app_assoc|left; exists r; auto]|].
          assert (LB : length (w1 (pr b)) <= length bs). { apply (f_equal (@length N)) in KW. rewrite !app_length, skipn_length in KW. lia. }
          exists (skipn (length (w1 (pr b))) bs). assert (EB : firstn (length (w1 (pr b))) bs = w1 (pr b)).
          { apply (f_equal (firstn (length (w1 (pr b))))) in KW. rewrite firstn_app, (firstn_app (length (w1 (pr b))) (w1 (pr b))) in KW. replace (length (w1 (pr b)) - length bs) with 0 in KW by lia. rewrite Nat.sub_diag, firstn_all in KW. cbn [firstn] in KW. rewrite !app_nil_r in KW. exact KW. }
          split; [rewrite <- EB at 1; symmetry; apply firstn_skipn|]. right. exists k. split; auto. split; auto. rewrite <- (firstn_skipn (length (w1 (pr b))) bs), EB, <- app_assoc in KW. apply app_inv_head in KW. exact KW. }
        destruct X as (rest & -> & R'). apply bytes_app in BB. destruct BB as [_ BR]. assert (Y : p (w1 (pr b) ++ rest, true) = Ok (pr b, (rest, true))). { apply E. split; auto. left. exists rest. auto. }
        rewrite Y. cbn [bind fst snd]. destruct (H2 rest BR) as [E2 _]. apply E2. auto.
    + destruct C as [->|([a s] & Y)]; [left; reflexivity|]. rewrite Y. cbn [bind fst snd]. apply E in Y. destruct Y as [Fa [(rest & -> & ->)|(k & K & _ & ->)]]; [|left; apply (SF a k); auto]. apply bytes_app in BB. destruct BB as [_ BR]. destruct (HF a Fa) as [_ H2]. apply (H2 rest BR).
Qed.

(** ** Numbers *)
Lemma le_bytes_value : forall l, Forall byte l -> le_bytes (length l) (le_value l) = l /\ (le_value l < 2 ^ N.of_nat (8 * length l))%N.
Proof.
  induction 1 as [|b l Hb Hl [E B]]; [split; [reflexivity|cbn; lia]|]. cbn [length le_bytes le_value]. unfold byte in Hb. split.
  - f_equal; [|rewrite <- E at 3; f_equal].
    + rewrite (N.mul_comm 256), N.mod_add by lia. apply N.mod_small. auto.
    + rewrite (N.mul_comm 256), N.div_add by lia. rewrite N.div_small by auto. lia.
  - replace (N.of_nat (8 * S (length l))) with (8 + N.of_nat (8 * length l))%N by lia. rewrite N.pow_add_r. change (2 ^ 8)%N with 256%N. lia.
Qed.
Lemma le_byte : forall n x, Forall byte (le_bytes n x).
Proof. induction n; intros x; cbn [le_bytes]; constructor; auto. unfold byte. apply N.mod_lt. lia. Qed.
Lemma le_value_bytes : forall n x, (x < 2 ^ N.of_nat (8 * n))%N -> le_value (le_bytes n x) = x.
Proof. intros n x H. apply le_round. replace (256 ^ N.of_nat n)%N with (2 ^ N.of_nat (8 * n))%N; auto. replace (N.of_nat (8 * n)) with (8 * N.of_nat n)%N by lia. rewrite N.pow_mul_r. reflexivity. Qed.
Lemma Forall_skip : forall (P : N -> Prop) k l, Forall P l -> Forall P (skipn k l).
Proof. intros P k l H. rewrite <- (firstn_skipn k l) in H. apply Forall_app in H. tauto. Qed.
Lemma Forall_first : forall (P : N -> Prop) k l, Forall P l -> Forall P (firstn k l).
Proof. intros P k l H. rewrite <- (firstn_skipn k l) in H. apply Forall_app in H. tauto. Qed.
Definition none {A} (a : A) : list N := [].
Lemma exact_val : forall n, exact (s_val n) (write_val n) (fun x => (x < 2 ^ N.of_nat (8 * n))%N) none.
Proof.
  intros n. split; [intros; cbn; lia|]. intros bs BB. unfold s_val. cbn [fst snd andb]. destruct (Nat.leb_spec n (length bs)) as [L|L].
  - assert (LF : length (firstn n bs) = n) by (rewrite firstn_length; lia). destruct (le_bytes_value (firstn n bs) (Forall_first _ _ _ BB)) as [E1 E2]. rewrite LF in E1, E2. split; [|right; eexists; reflexivity].
    intros x st. split.
    + intros H. assert (x = le_value (firstn n bs) /\ st = (skipn n bs, true)) as [-> ->] by (split; congruence). split; auto. left. exists (skipn n bs). split; auto. unfold write_val. rewrite E1. symmetry. apply firstn_skipn.
    + intros [X [(rest & R & ->)|(k & K & _)]]; [|cbn in K; lia]. unfold write_val in R. assert (LB : length (le_bytes n x) = n) by apply le_length.
      rewrite R. rewrite firstn_app, skipn_app, LB, Nat.sub_diag. rewrite <- LB at 1 3. rewrite firstn_all, skipn_all. cbn [firstn skipn app]. rewrite app_nil_r. rewrite le_value_bytes by auto. reflexivity.
  - split; [|left; reflexivity]. intros x st. split; [discriminate|]. intros [X [(rest & R & _)|(k & K & _)]]; [|cbn in K; lia]. apply (f_equal (@length N)) in R. rewrite app_length in R. unfold write_val in R. rewrite le_length in R. lia.
Qed.
Lemma exact_size : exact s_size write_size size_fits none.
Proof.
  apply exact_ext with (1 := exact_map _ _ (s_val 8) _ _ _ N.to_nat N.of_nat (exact_val 8) N2Nat.id); try reflexivity. intros n. unfold size_fits. rewrite Nat2N.id. tauto.
Qed.

(** ** Arrays *)
Lemma chunks_concat : forall sz n l, length l = sz * n -> concat (chunks sz n l) = l /\ Forall (fun c => length c = sz) (chunks sz n l) /\ length (chunks sz n l) = n.
Proof.
  induction n as [|n IH]; intros l L; cbn [chunks concat length]. { destruct l; [auto|cbn [length] in L; lia]. }
  destruct (IH (skipn sz l)) as (A & B & C); [rewrite skipn_length; lia|]. rewrite A, C, firstn_skipn. split; auto. split; auto. constructor; auto. rewrite firstn_length. lia.
Qed.
Lemma chunks_app : forall sz n l r, length l = sz * n -> chunks sz n (l ++ r) = chunks sz n l.
Proof.
  induction n as [|n IH]; intros l r L; [reflexivity|]. cbn [chunks]. rewrite firstn_app, skipn_app. replace (sz - length l) with 0 by lia. cbn [firstn skipn]. rewrite app_nil_r. f_equal. apply IH. rewrite skipn_length. lia.
Qed.
Lemma chunks_byte : forall sz n l, Forall byte l -> Forall (Forall byte) (chunks sz n l).
Proof. induction n as [|n IH]; intros l H; cbn [chunks]; constructor; auto using Forall_first, Forall_skip. Qed.
Lemma concat_len : forall A sz (enc : A -> list N) l, Forall (fun a => length (enc a) = sz) l -> length (concat (map enc l)) = sz * length l.
Proof. induction 1; cbn [map concat length]; [lia|]. rewrite app_length. lia. Qed.
Lemma chunks_enc : forall A sz (enc : A -> list N) l, Forall (fun a => length (enc a) = sz) l -> chunks sz (length l) (concat (map enc l)) = map enc l.
Proof.
  induction 1 as [|a l Ha Hl IH]; [reflexivity|]. cbn [map concat length chunks]. rewrite <- Ha at 1 3. rewrite firstn_app, skipn_app, Nat.sub_diag, firstn_all, skipn_all. cbn [firstn skipn app]. rewrite app_nil_r. f_equal. exact IH.
Qed.
Section Vec.
Variables (A : Type) (sz : nat) (enc : A -> list N) (dec : list N -> A) (d : A) (E : A -> Prop).
Hypothesis Hdec : forall a, E a -> dec (enc a) = a /\ length (enc a) = sz /\ Forall byte (enc a).
Hypothesis Henc : forall c, Forall byte c -> length c = sz -> E (dec c) /\ enc (dec c) = c.
Hypothesis Hd : E d.
Lemma dec_all : forall n l, Forall byte l -> length l = sz * n -> concat (map enc (map dec (chunks sz n l))) = l /\ Forall E (map dec (chunks sz n l)) /\ length (map dec (chunks sz n l)) = n.
Proof.
  intros n l B L. destruct (chunks_concat sz n l L) as (C1 & C2 & C3). pose proof (chunks_byte sz n l B) as C4. rewrite map_length. split; [|split; auto].
  - rewrite <- C1 at 2. f_equal. rewrite map_map. rewrite <- (map_id (chunks sz n l)) at 2. apply map_ext_in. intros c Hc. rewrite Forall_forall in C2, C4. apply Henc; auto.
  - apply Forall_forall. intros a Ha. apply in_map_iff in Ha. destruct Ha as (c & <- & Hc). rewrite Forall_forall in C2, C4. apply Henc; auto.
Qed.
Lemma enc_all : forall l, Forall E l -> map dec (chunks sz (length l) (concat (map enc l))) = l /\ length (concat (map enc l)) = sz * length l /\ Forall byte (concat (map enc l)).
Proof.
  intros l H. assert (F : Forall (fun a => length (enc a) = sz) l) by (eapply Forall_impl; [|exact H]; intros a Ha; apply Hdec; auto). rewrite chunks_enc by auto. split; [|split].
  - rewrite map_map. rewrite <- (map_id l) at 2. apply map_ext_in. intros a Ha. rewrite Forall_forall in H. apply Hdec. auto.
  - apply concat_len. auto.
  - clear F. induction H; cbn [map concat]; [constructor|]. apply Forall_app. split; auto. apply Hdec. auto.
Qed.
Lemma exact_vec : forall old, Forall E old -> exact (s_vec sz enc dec d old) (write_vec enc) (fun l => size_fits (length l) /\ Forall E l) (fun l => concat (map enc (lresize old (length l) d))).
Proof.
  intros old HO. assert (HR : forall n, Forall E (lresize old n d)).
  { intros n. unfold lresize. apply Forall_app. split; [rewrite <- (firstn_skipn n old) in HO; apply Forall_app in HO; tauto|]. apply Forall_forall. intros x X. apply repeat_spec in X. subst. auto. }
  set (cur := fun n => concat (map enc (lresize old n d))). assert (LC : forall n, length (cur n) = sz * n) by (intros n; unfold cur; destruct (enc_all _ (HR n)) as (_ & X & _); rewrite X, lresize_length; auto).
  assert (BC : forall n, Forall byte (cur n)) by (intros n; apply enc_all; auto).
  unfold s_vec. apply exact_ext with (w := fun l => write_size (length l) ++ concat (map enc l)) (F := fun l => size_fits (length l) /\ Forall E l) (tl := fun l => cur (length l)); try reflexivity.
  apply (exact_bind nat (list A) s_size _ write_size size_fits none (@length A) (fun l => concat (map enc l)) (Forall E) (fun l => cur (length l)) exact_size); [|left; reflexivity].
  intros n _. split.
  - intros l [Fl <-]. rewrite LC. destruct (enc_all l Fl) as (_ & -> & _). auto.
  - intros bs BB. cbv beta zeta. cbn [fst]. destruct (Nat.leb_spec (sz * n) (length bs)) as [L|L].
    + set (b1 := firstn (sz * n) bs). set (b2 := skipn (sz * n) bs). assert (EB : bs = b1 ++ b2) by (symmetry; apply firstn_skipn). assert (L1 : length b1 = sz * n) by (unfold b1; rewrite firstn_length; lia).
      assert (B1 : Forall byte b1) by (apply Forall_first; auto). destruct (dec_all n b1 B1 L1) as (D1 & D2 & D3). assert (EC : chunks sz n bs = chunks sz n b1) by (rewrite EB; apply chunks_app; auto). rewrite EC. split; [|right; eexists; reflexivity].
      intros l st. split.
      * intros H. assert (l = map dec (chunks sz n b1) /\ st = (b2, true)) as [-> ->] by (split; congruence). split; [split; auto|]. left. exists b2. rewrite D1. auto.
      * intros [[Fl <-] R]. destruct (enc_all l Fl) as (G1 & G2 & G3). destruct R as [(rest & R & ->)|(k & K & KW & _)].
        -- assert (E1 : b1 = concat (map enc l) /\ b2 = rest). { rewrite EB in R. split; [apply (f_equal (firstn (sz * length l))) in R|apply (f_equal (skipn (sz * length l))) in R].
             - rewrite !firstn_app, L1, G2, Nat.sub_diag in R. cbn [firstn] in R. rewrite !app_nil_r in R. rewrite <- L1 in R at 1. rewrite firstn_all in R. rewrite <- G2, firstn_all in R. exact R.
             - rewrite !skipn_app, L1, G2, Nat.sub_diag in R. cbn [skipn] in R. rewrite <- L1 in R at 1. rewrite skipn_all in R. rewrite <- G2, skipn_all in R. exact R. }
           destruct E1 as [-> ->]. rewrite G1. reflexivity.
        -- exfalso. apply (f_equal (@length N)) in KW. rewrite app_length, skipn_length, LC, G2 in KW. rewrite LC in K. lia.
    + set (full := bs ++ skipn (length bs) (cur n)). assert (LF : length full = sz * n) by (unfold full; rewrite app_length, skipn_length, LC; lia). assert (BF : Forall byte full) by (apply Forall_app; split; auto; apply Forall_skip, BC).
      destruct (dec_all n full BF LF) as (D1 & D2 & D3). fold (cur n). fold full. split; [|right; eexists; reflexivity]. intros l st. split.
      * intros H. assert (l = map dec (chunks sz n full) /\ st = ([], false)) as [-> ->] by (split; congruence). split; [split; auto|]. right. rewrite D3. exists (sz * n - length bs). rewrite LC. split; [lia|]. split; auto. rewrite D1. unfold full. f_equal. f_equal. lia.
      * intros [[Fl <-] R]. destruct (enc_all l Fl) as (G1 & G2 & G3). destruct R as [(rest & R & ->)|(k & K & KW & ->)].
        -- exfalso. apply (f_equal (@length N)) in R. rewrite app_length, G2 in R. lia.
        -- assert (E1 : full = concat (map enc l)). { unfold full. rewrite <- KW. f_equal. f_equal. apply (f_equal (@length N)) in KW. rewrite app_length, skipn_length, G2, LC in KW. rewrite LC. rewrite LC in K. lia. }
           rewrite E1, G1. reflexivity.
Qed.
End Vec.

(** ** The containers *)
Lemma exact_ints : forall n old, Forall (fun x => (x < 2 ^ N.of_nat (8 * n))%N) old ->
  exact (s_ints n old) (write_vec (write_val n)) (fun l => size_fits (length l) /\ Forall (fun x => (x < 2 ^ N.of_nat (8 * n))%N) l) (fun l => concat (map (write_val n) (lresize old (length l) 0%N))).
Proof.
  intros n old H. apply exact_vec; auto.
  - intros a Ha. unfold write_val. split; [apply le_value_bytes; auto|]. split; [apply le_length|apply le_byte].
  - intros c B L. subst n. destruct (le_bytes_value c B). auto.
  - apply N.neq_0_lt_0. apply N.pow_nonzero. lia.
Qed.
Lemma exact_string : exact s_string write_string (fun l => size_fits (length l) /\ Forall byte l) (fun l => repeat 0%N (length l)).
Proof.
  assert (SI : forall l : list N, concat (map (fun c => [c]) l) = l) by (induction l as [|x l IH]; [reflexivity|cbn [map concat app]; rewrite IH; reflexivity]).
  eapply exact_ext with (1 := exact_vec N 1 (fun c => [c]) (hd 0%N) 0%N byte _ _ _ [] _); try reflexivity.
  - intros l _. unfold write_vec, write_string. rewrite SI. reflexivity.
  - intros l _. rewrite SI. unfold lresize. rewrite firstn_nil, Nat.sub_0_r. reflexivity.
  Unshelve. + intros a Ha. auto. + intros c B L. destruct c as [|x [|]]; try discriminate L. inversion B; subst. auto. + unfold byte. lia. + constructor.
Qed.
Lemma exact_bv : forall target, bv_fits target -> exact (s_bv target) bv_write bv_fits (bv_old target).
Proof.
  intros target (_ & _ & HT). apply exact_ext with (w := fun v => write_size (bv_size v) ++ write_vec (write_val 8) (bv_words v)) (F := fun v => size_fits (bv_size v) /\ (size_fits (length (bv_words v)) /\ Forall word_fits (bv_words v))) (tl := bv_old target); try reflexivity.
  unfold s_bv. apply (exact_bind nat bitvec s_size _ write_size size_fits none bv_size (fun v => write_vec (write_val 8) (bv_words v)) (fun v => size_fits (length (bv_words v)) /\ Forall word_fits (bv_words v)) (bv_old target) exact_size); [|right; intros n; apply strict_bind, strict_ints].
  intros n _. eapply exact_ext with (1 := exact_map _ _ _ _ _ _ (fun ws => BV n ws) bv_words (exact_ints 8 (bv_words target) HT) (fun ws => eq_refl)); try reflexivity.
  intros [m ws]. cbn [bv_words bv_size]. split; intros [X Y]; (split; [exact X|]); [congruence|subst; reflexivity].
Qed.
Lemma strict_bv : forall t, strict (s_bv t).
Proof. intros t. unfold s_bv. apply strict_bind, strict_size. Qed.
Lemma strict_sb : forall us t, strict (s_sb us t).
Proof. intros us t. unfold s_sb. apply strict_bind, strict_bv. Qed.
Lemma exact_sb : forall us target, sb_fits target -> exact (s_sb us target) (sb_write us) (fun s => sb_fits s /\ (us = false -> sb_tips s = sb_tips target)) (sb_old us target).
Proof.
  intros us target (TB & TK1 & TK2 & TT1 & TT2).
  set (R := fun s => write_vec (write_val 8) (sb_block s) ++ (if us then write_vec (write_val 4) (sb_tips s) else [])).
  set (FK := fun s => size_fits (length (sb_block s)) /\ Forall word_fits (sb_block s)).
  set (FT := fun s => (size_fits (length (sb_tips s)) /\ Forall (fun x => (x < 2 ^ 32)%N) (sb_tips s)) /\ (us = false -> sb_tips s = sb_tips target)).
  apply exact_ext with (w := fun s => bv_write (sb_bits s) ++ R s) (F := fun s => bv_fits (sb_bits s) /\ (FK s /\ FT s)) (tl := sb_old us target).
  - unfold s_sb. apply (exact_bind bitvec sbv (s_bv (sb_bits target)) _ bv_write bv_fits (bv_old (sb_bits target)) sb_bits R (fun s => FK s /\ FT s) (sb_old us target) (exact_bv _ TB)).
    2: { right. intros b. apply strict_bind, strict_ints. }
    intros b Fb. destruct us.
    + apply exact_ext with (w := R) (F := fun s => FK s /\ (FT s /\ sb_bits s = b)) (tl := sb_old true target); try reflexivity; [|intros a; tauto].
      unfold R. apply (exact_bind (list N) sbv (s_ints 8 (sb_block target)) _ (write_vec (write_val 8)) (fun l => size_fits (length l) /\ Forall word_fits l) (fun l => concat (map (write_val 8) (lresize (sb_block target) (length l) 0%N))) sb_block
        (fun s => write_vec (write_val 4) (sb_tips s)) (fun s => FT s /\ sb_bits s = b) (sb_old true target) (exact_ints 8 (sb_block target) TK2)); [|right; intros k; apply strict_bind, strict_ints].
      intros k Fk. eapply exact_ext with (1 := exact_map _ _ _ _ _ _ (fun t => SBV b k t) sb_tips (exact_ints 4 (sb_tips target) TT2) (fun t => eq_refl)); try reflexivity.
      intros [b' k' t']. unfold FT. cbn [sb_bits sb_block sb_tips]. split; [intros [X Y]|intros [[[X _] Y] Z]].
      * assert (b' = b /\ k' = k) as [-> ->] by (split; congruence). split; [|reflexivity]. split; [|reflexivity]. split; [exact X|discriminate].
      * subst. auto.
    + apply exact_ext with (w := fun s => write_vec (write_val 8) (sb_block s)) (F := fun s => FK s /\ SBV b (sb_block s) (sb_tips target) = s) (tl := sb_old false target).
      * unfold FK. apply (exact_map _ _ _ _ _ _ (fun k => SBV b k (sb_tips target)) sb_block (exact_ints 8 (sb_block target) TK2) (fun t => eq_refl)).
      * intros [b' k' t']. unfold FK, FT. cbn [sb_bits sb_block sb_tips]. split; [intros [X Y]|intros [[X [_ Y]] Z]].
        -- assert (b' = b /\ t' = sb_tips target) as [-> ->] by (split; congruence). auto 10.
        -- specialize (Y eq_refl). subst. auto.
      * intros s _. unfold R. rewrite app_nil_r. reflexivity.
      * reflexivity.
  - intros s. unfold sb_fits, FK, FT. tauto.
  - reflexivity.
  - reflexivity.
Qed.
Lemma zeros : forall n, concat (map (write_val 8) (lresize [] n 0%N)) = repeat 0%N (8 * n).
Proof.
  intros n. unfold lresize. rewrite firstn_nil, Nat.sub_0_r. cbn [app]. induction n as [|n IH]; [reflexivity|]. cbn [length Nat.sub repeat map concat] in *. rewrite IH. replace (8 * S n) with (8 + 8 * n) by lia. rewrite repeat_app. reflexivity.
Qed.
Lemma strict_fv : strict s_fv.
Proof. apply strict_bind, strict_size. Qed.
Lemma exact_fv : exact s_fv fv_write (fun v => fv_fits v /\ fv_width v < 64) fv_old.
Proof.
  set (F2 := fun v => size_fits (fv_size v) /\ (size_fits (length (fv_words v)) /\ Forall word_fits (fv_words v))). set (R := fun v => write_size (fv_size v) ++ write_vec (write_val 8) (fv_words v)).
  apply exact_ext with (w := fun v => write_size (fv_width v) ++ R v) (F := fun v => size_fits (fv_width v) /\ (fv_width v < 64 /\ F2 v)) (tl := fv_old).
  - unfold s_fv. apply (exact_bind nat fitvec s_size _ write_size size_fits none fv_width R (fun v => fv_width v < 64 /\ F2 v) fv_old exact_size); [|left; reflexivity].
    intros w _. assert (G : exact (rd n <- s_size; rd ws <- s_ints 8 []; sret (FV w n ws)) R (fun v => F2 v /\ fv_width v = w) fv_old).
    { apply exact_ext with (w := R) (F := fun v => size_fits (fv_size v) /\ ((size_fits (length (fv_words v)) /\ Forall word_fits (fv_words v)) /\ fv_width v = w)) (tl := fv_old); try reflexivity; [|unfold F2; intros v; tauto].
      unfold R. apply (exact_bind nat fitvec s_size _ write_size size_fits none fv_size (fun v => write_vec (write_val 8) (fv_words v)) (fun v => (size_fits (length (fv_words v)) /\ Forall word_fits (fv_words v)) /\ fv_width v = w) fv_old exact_size); [|left; reflexivity].
      intros n _. eapply exact_ext with (1 := exact_map _ _ _ _ _ _ (fun ws => FV w n ws) fv_words (exact_ints 8 [] (Forall_nil _)) (fun ws => eq_refl)); try reflexivity.
      - intros [w' n' ws']. cbn [fv_words fv_size fv_width]. split; [intros [X Y]; assert (w' = w /\ n' = n) as [-> ->] by (split; congruence); auto|intros [[X ->] ->]; auto].
      - intros v _. apply zeros. }
    destruct (le_lt_dec 64 w) as [W|W].
    + split; [intros v [[X _] Y]; lia|]. intros bs BB. unfold sbind at 1, WidthMask, shl64. destruct (N.ltb_spec (N.of_nat w) 64); [lia|]. cbn [bind]. split; [|left; reflexivity]. intros v st. split; [discriminate|]. intros [[[X _] Y] _]. lia.
    + apply exact_ext with (w := R) (F := fun v => F2 v /\ fv_width v = w) (tl := fv_old); try reflexivity; [|intros v; split; [intros [X Y]; subst; auto|tauto]].
      destruct G as [G1 G2]. split; auto. intros bs BB. unfold sbind at 1 3 5. unfold WidthMask, shl64. destruct (N.ltb_spec (N.of_nat w) 64); [|lia]. cbn [bind fst snd]. apply G2; auto.
  - intros v. unfold fv_fits, F2. tauto.
  - reflexivity.
  - reflexivity.
Qed.
(** ** Sequences of readers *)
Lemma last_one : forall A (t : A -> list N) a, last_old t [a] = t a.
Proof. reflexivity. Qed.
Lemma last_cons : forall A (t : A -> list N) a b l, last_old t (a :: b :: l) = last_old t (b :: l).
Proof. intros. unfold last_old. cbn [rev]. destruct ((rev l ++ [b])) eqn:E; [destruct (rev l); discriminate|]. reflexivity. Qed.
Lemma exact_one : forall A (d : A) (p : sreader A) (w : A -> list N) (F : A -> Prop) (t : A -> list N) (f : A -> sreader (list A)), exact p w F t -> (forall a s, f a s = Ok ([a], s)) -> exact (sbind p f) (fun l => concat (map w l)) (fun l => exists a, l = [a] /\ F a) (last_old t).
Proof.
  intros A d p w F t f H Hf. assert (G : exact (rd a <- p; sret [a]) (fun l => concat (map w l)) (fun l => exists a, l = [a] /\ F a) (last_old t)).
  { eapply exact_ext with (1 := exact_map _ _ p w F t (fun a => [a]) (hd d) H (fun a => eq_refl)).
    - intros l. split; [intros [X Y]; exists (hd d l); auto|]. intros (a & -> & Fa). auto.
    - intros l [X <-]. cbn [map concat hd]. rewrite app_nil_r. reflexivity.
    - intros l [X <-]. reflexivity. }
  destruct G as [G1 G2]. split; auto. intros bs BB. destruct (G2 bs BB) as [X Y]. replace (sbind p f (bs, true)) with ((rd a <- p; sret [a]) (bs, true)); auto. unfold sbind. destruct (p (bs, true)) as [[a s]| | |]; cbn [bind fst snd]; auto. unfold sret. rewrite Hf. reflexivity.
Qed.
Lemma exact_more : forall A (d : A) (p : sreader A) (w : A -> list N) (F : A -> Prop) (t : A -> list N) q G (T : list A -> list N), exact p w F t -> exact q (fun l => concat (map w l)) G T -> strict q ->
  exact (rd a <- p; rd l <- q; sret (a :: l)) (fun l => concat (map w l)) (fun l => exists a r, l = a :: r /\ F a /\ G r) (fun l => T (tl l)).
Proof.
  intros A d p w F t q G T HP HQ SQ. eapply exact_ext with (1 := exact_bind A (list A) p (fun a => rd l <- q; sret (a :: l)) w F t (hd d) (fun l => concat (map w (tl l))) (fun l => l <> [] /\ G (tl l)) (fun l => T (tl l)) HP _ _).
  - intros l. split; [intros (X & Y & Z); destruct l as [|a r]; [congruence|]; exists a, r; auto|]. intros (a & r & -> & Fa & Gr). cbn [hd tl]. repeat split; auto. discriminate.
  - intros l (X & Y & Z). destruct l; [congruence|]. reflexivity.
  - reflexivity.
  Unshelve.
  + intros a Fa. eapply exact_ext with (1 := exact_map _ _ q _ G T (fun l => a :: l) (@tl A) HQ (fun l => eq_refl)); try reflexivity.
    intros l. split; [intros [X Y]; destruct l; [discriminate|]; cbn [tl hd] in *; repeat split; auto; congruence|]. intros ((X & Y) & Z). destruct l; [congruence|]. cbn [tl hd] in *. subst. auto.
  + right. intros a. apply strict_bind, SQ.
Qed.
Lemma exact_rep : forall A (d : A) (p : sreader A) (w : A -> list N) (F : A -> Prop) (t : A -> list N), exact p w F t -> strict p -> forall n, exact (s_rep (S n) p) (fun l => concat (map w l)) (fun l => length l = S n /\ Forall F l) (last_old t).
Proof.
  intros A d p w F t H SP. induction n as [|n IH].
  - cbn [s_rep]. eapply exact_ext with (1 := exact_one A d p w F t _ H _); try reflexivity. intros l. split; [intros (a & -> & Fa); auto|]. intros [L FL]. destruct l as [|a [|]]; try discriminate. inversion FL; subst. exists a. auto. Unshelve. reflexivity.
  - cbn [s_rep] in *. eapply exact_ext with (1 := exact_more A d p w F t _ _ _ H IH _); try reflexivity.
    + intros l. split; [intros (a & r & -> & Fa & L & FL); cbn [length]; auto|]. intros [L FL]. destruct l as [|a r]; try discriminate. inversion FL; subst. exists a, r. cbn [length] in L. auto.
    + intros l (a & r & -> & _ & L & _). cbn [tl]. destruct r; [discriminate|]. rewrite last_cons. reflexivity.
    Unshelve. apply strict_bind, SP.
Qed.
Lemma strict_rep : forall A n (p : sreader A), strict p -> strict (s_rep (S n) p).
Proof. intros A n p H. cbn [s_rep]. apply strict_bind, H. Qed.

(** ** Structures of several parts *)
Lemma strict_samc : forall cw t, strict (s_samc cw t).
Proof. intros. unfold s_samc. apply strict_bind, strict_ints. Qed.
Lemma map_lresize : forall A B (f : A -> B) l n d, map f (lresize l n d) = lresize (map f l) n (f d).
Proof. intros. unfold lresize. rewrite map_app, firstn_map, map_length. f_equal. induction (n - length l) as [|k IH]; [reflexivity|]. cbn [repeat map]. rewrite IH. reflexivity. Qed.
Lemma exact_rows : forall cw old, let E := fun row : list N => length row = 256 /\ Forall (fun c => (c < 2 ^ N.of_nat (8 * cw))%N) row in Forall E old ->
  exact (s_vec (256 * cw) (row_write cw) (row_dec cw) (repeat 0%N 256) old) (write_vec (row_write cw)) (fun l => size_fits (length l) /\ Forall E l) (fun l => concat (map (row_write cw) (lresize old (length l) (repeat 0%N 256)))).
Proof.
  intros cw old E HO. set (P := fun c => (c < 2 ^ N.of_nat (8 * cw))%N).
  assert (H1 : forall a, P a -> le_value (write_val cw a) = a /\ length (write_val cw a) = cw /\ Forall byte (write_val cw a)) by (intros a Ha; unfold write_val; split; [apply le_value_bytes; auto|split; [apply le_length|apply le_byte]]).
  assert (H2 : forall c, Forall byte c -> length c = cw -> P (le_value c) /\ write_val cw (le_value c) = c) by (intros c B L; destruct (le_bytes_value c B) as [X Y]; rewrite L in X, Y; auto).
  apply exact_vec; auto.
  - intros row [L F]. unfold row_dec, row_write. destruct (enc_all N cw (write_val cw) le_value P H1 row F) as (A1 & A2 & A3). rewrite L in A1, A2. split; auto. split; auto. lia.
  - intros c B L. unfold row_dec, row_write. destruct (dec_all N cw (write_val cw) le_value P H2 256 c B) as (A1 & A2 & A3); [lia|]. split; [split; auto|auto].
  - split; [apply repeat_length|]. apply Forall_forall. intros x X. apply repeat_spec in X. subst. apply N.neq_0_lt_0, N.pow_nonzero. lia.
Qed.
Lemma exact_samc : forall cw target, samc_fits cw target -> exact (s_samc cw target) (samc_write cw) (samc_fits cw) (samc_old cw target).
Proof.
  intros cw target (_ & T2 & _ & T4 & _ & T6). set (P := fun c => (c < 2 ^ N.of_nat (8 * cw))%N). set (E := fun row : list N => length row = 256 /\ Forall P row).
  set (F1 := fun l : list N => size_fits (length l) /\ Forall (fun b => (b < 256)%N) l). set (F2 := fun l => size_fits (length l) /\ Forall E l). set (F3 := fun s => size_fits (length (sm_head s)) /\ Forall (fun h => P (N.of_nat h)) (sm_head s)).
  set (W3 := fun s => write_vec (fun h => write_val cw (N.of_nat h)) (sm_head s)). set (W2 := fun s => write_vec (row_write cw) (sm_codes s) ++ W3 s).
  apply exact_ext with (w := fun s => write_vec (write_val 1) (sm_storage s) ++ W2 s) (F := fun s => F1 (sm_storage s) /\ (F2 (sm_codes s) /\ F3 s)) (tl := samc_old cw target); try reflexivity.
  2: { intros s. unfold samc_fits, F1, F2, F3. tauto. }
  unfold s_samc. apply (exact_bind (list N) samc (s_ints 1 (sm_storage target)) _ (write_vec (write_val 1)) F1 (fun l => concat (map (write_val 1) (lresize (sm_storage target) (length l) 0%N))) sm_storage W2 (fun s => F2 (sm_codes s) /\ F3 s) _ (exact_ints 1 _ T2)); [|right; intros; apply strict_bind, strict_vec].
  intros st _. apply exact_ext with (w := W2) (F := fun s => F2 (sm_codes s) /\ (F3 s /\ sm_storage s = st)) (tl := samc_old cw target); try reflexivity; [|intros; tauto].
  apply (exact_bind (list (list N)) samc _ _ (write_vec (row_write cw)) F2 (fun l => concat (map (row_write cw) (lresize (sm_codes target) (length l) (repeat 0%N 256)))) sm_codes W3 (fun s => F3 s /\ sm_storage s = st) (samc_old cw target) (exact_rows cw _ T4)); [|right; intros; apply strict_bind, strict_ints].
  intros co _. assert (TH : Forall P (map N.of_nat (sm_head target))) by (apply Forall_map; exact T6).
  assert (ID : forall l, map N.to_nat (map N.of_nat l) = l) by (intros l; rewrite map_map; rewrite <- (map_id l) at 2; apply map_ext; intros; apply Nat2N.id).
  assert (ID' : forall l, map N.of_nat (map N.to_nat l) = l) by (intros l; rewrite map_map; rewrite <- (map_id l) at 2; apply map_ext; intros; apply N2Nat.id).
  eapply exact_ext with (1 := exact_map _ _ _ _ _ _ (fun head => {| sm_storage := st; sm_codes := co; sm_head := map N.to_nat head |}) (fun s => map N.of_nat (sm_head s)) (exact_ints cw _ TH) _).
  - intros [st' co' hd']. unfold F3. cbn [sm_storage sm_codes sm_head]. rewrite map_length, ID, Forall_map. split; [intros [X Y]|intros [[X Y] Z]; subst; auto]. assert (st' = st /\ co' = co) as [-> ->] by (split; congruence). auto.
  - intros s _. unfold W3, write_vec. rewrite map_length, map_map. reflexivity.
  - intros s _. unfold samc_old. rewrite map_length. rewrite <- (map_map N.of_nat (write_val cw)), (map_lresize _ _ N.of_nat). reflexivity.
  Unshelve. intros l. cbn [sm_head]. apply ID'.
Qed.
Lemma exact_dict : forall cw target, samc_fits cw (sd_samc target) -> sb_fits (sd_leaves target) ->
  exact (s_dict cw target) (dict_write cw) (fun t => samc_fits cw (sd_samc t) /\ sb_fits (sd_leaves t)) (dict_old target).
Proof.
  intros cw target TS TL. unfold s_dict. apply (exact_bind samc samc_dict (s_samc cw (sd_samc target)) _ (samc_write cw) (samc_fits cw) (samc_old cw (sd_samc target)) sd_samc (fun t => sb_write true (sd_leaves t)) (fun t => sb_fits (sd_leaves t)) (dict_old target) (exact_samc cw _ TS)); [|right; intros; apply strict_bind, strict_sb].
  intros s _. eapply exact_ext with (1 := exact_map _ _ _ _ _ _ (fun l => {| sd_samc := s; sd_leaves := l |}) sd_leaves (exact_sb true (sd_leaves target) TL) (fun l => eq_refl)); try reflexivity.
  intros [s' l']. cbn [sd_samc sd_leaves]. split; [intros [[X _] Y]; split; [auto|congruence]|intros [X Y]; subst; split; [split; [auto|discriminate]|auto]].
Qed.
Lemma exact_sufarr : exact s_sufarr (fun x => sufarr_write (fst x) (snd x)) (fun x => (size_fits (length (fst x)) /\ Forall byte (fst x)) /\ (fv_fits (fst (snd x)) /\ fv_width (fst (snd x)) < 64) /\ (fv_fits (snd (snd x)) /\ fv_width (snd (snd x)) < 64)) (fun x => fv_old (snd (snd x))).
Proof.
  set (F := fun v => fv_fits v /\ fv_width v < 64).
  unfold s_sufarr. apply (exact_bind (list N) (list N * (fitvec * fitvec)) s_string _ write_string (fun l => size_fits (length l) /\ Forall byte l) (fun l => repeat 0%N (length l)) fst (fun x => fv_write (fst (snd x)) ++ fv_write (snd (snd x))) (fun x => F (fst (snd x)) /\ F (snd (snd x))) (fun x => fv_old (snd (snd x))) exact_string); [|right; intros; apply strict_bind, strict_fv].
  intros s _. apply exact_ext with (w := fun x : list N * (fitvec * fitvec) => fv_write (fst (snd x)) ++ fv_write (snd (snd x))) (F := fun x => F (fst (snd x)) /\ (F (snd (snd x)) /\ fst x = s)) (tl := fun x => fv_old (snd (snd x))); try reflexivity; [|intros; tauto].
  apply (exact_bind fitvec (list N * (fitvec * fitvec)) s_fv _ fv_write F fv_old (fun x => fst (snd x)) (fun x => fv_write (snd (snd x))) (fun x => F (snd (snd x)) /\ fst x = s) (fun x => fv_old (snd (snd x))) exact_fv); [|right; intros; apply strict_bind, strict_fv].
  intros a _. eapply exact_ext with (1 := exact_map _ _ _ _ _ _ (fun l => (s, (a, l))) (fun x => snd (snd x)) exact_fv (fun l => eq_refl)); try reflexivity.
  intros [s' [a' l']]. cbn [fst snd]. split; [intros [X Y]|intros [[X Y] Z]; subst; auto]. assert (s' = s /\ a' = a) as [-> ->] by (split; congruence). auto.
Qed.
Lemma strict_nodes : forall t l, strict (s_nodes (t :: l)).
Proof. intros t l. cbn [s_nodes]. apply strict_bind, strict_sb. Qed.
Lemma exact_nodes : forall target, target <> [] -> Forall sb_fits target -> exact (s_nodes target) (fun l => concat (map (sb_write false) l)) (same_tips target) (nodes_old target).
Proof.
  induction target as [|t target IH]; intros NE FT; [congruence|]. inversion FT as [|? ? Ft FT']; subst.
  assert (HS : exact (s_sb false t) (sb_write false) (fun s => sb_fits s /\ sb_tips s = sb_tips t) (sb_old false t)) by (eapply exact_ext with (1 := exact_sb false t Ft); try reflexivity; intros s; tauto).
  destruct target as [|t2 target].
  - cbn [s_nodes]. eapply exact_ext with (1 := exact_one sbv sb_default _ _ _ _ _ HS _); try reflexivity.
    + intros l. split; [intros (a & -> & Fa); constructor; auto; constructor|]. intros X. inversion X as [|? s ? r Y Z]; subst. inversion Z; subst. exists s. auto.
    Unshelve. reflexivity.
  - specialize (IH ltac:(discriminate) FT'). change (s_nodes (t :: t2 :: target)) with (rd a <- s_sb false t; rd r <- s_nodes (t2 :: target); sret (a :: r)).
    eapply exact_ext with (1 := exact_more sbv sb_default _ _ _ _ _ _ _ HS IH (strict_nodes _ _)); try reflexivity.
    + intros l. split; [intros (a & r & -> & Fa & Gr); constructor; auto|]. intros X. inversion X as [|? s ? r Y Z]; subst. exists s, r. auto.
    + intros l (a & r & -> & _ & X). cbn [tl]. inversion X as [|? s ? r' Y Z]; subst. unfold nodes_old. cbn [rev]. destruct (rev target ++ [t2]) eqn:E1; [destruct (rev target); discriminate|]. destruct (rev r' ++ [s]) eqn:E2; [destruct (rev r'); discriminate|]. reflexivity.
Qed.
Lemma exact_wt : forall target, wt_nodes target <> [] -> Forall sb_fits (wt_nodes target) ->
  exact (s_wt target) wt_image (fun x => size_fits (wt_height (fst x)) /\ word_fits (wt_leafs (fst x)) /\ word_fits (snd x) /\ same_tips (wt_nodes target) (wt_nodes (fst x))) (fun x => nodes_old (wt_nodes target) (wt_nodes (fst x))).
Proof.
  intros target NE FT. set (T := fun x : wavelet * N => nodes_old (wt_nodes target) (wt_nodes (fst x))). set (FN := fun x : wavelet * N => same_tips (wt_nodes target) (wt_nodes (fst x))). set (WN := fun x : wavelet * N => concat (map (sb_write false) (wt_nodes (fst x)))).
  unfold s_wt. apply (exact_bind nat (wavelet * N) s_size _ write_size size_fits none (fun x => wt_height (fst x)) (fun x => write_val 8 (wt_leafs (fst x)) ++ write_val 8 (snd x) ++ WN x) (fun x => word_fits (wt_leafs (fst x)) /\ word_fits (snd x) /\ FN x) T exact_size); [|left; reflexivity].
  intros h _. apply exact_ext with (w := fun x : wavelet * N => write_val 8 (wt_leafs (fst x)) ++ write_val 8 (snd x) ++ WN x) (F := fun x => word_fits (wt_leafs (fst x)) /\ (word_fits (snd x) /\ FN x /\ wt_height (fst x) = h)) (tl := T); try reflexivity; [|intros; tauto].
  apply (exact_bind N (wavelet * N) (s_val 8) _ (write_val 8) word_fits none (fun x => wt_leafs (fst x)) (fun x => write_val 8 (snd x) ++ WN x) (fun x => word_fits (snd x) /\ FN x /\ wt_height (fst x) = h) T (exact_val 8)); [|left; reflexivity].
  intros lf _. apply exact_ext with (w := fun x : wavelet * N => write_val 8 (snd x) ++ WN x) (F := fun x => word_fits (snd x) /\ (FN x /\ wt_height (fst x) = h /\ wt_leafs (fst x) = lf)) (tl := T); try reflexivity; [|intros; tauto].
  apply (exact_bind N (wavelet * N) (s_val 8) _ (write_val 8) word_fits none snd WN (fun x => FN x /\ wt_height (fst x) = h /\ wt_leafs (fst x) = lf) T (exact_val 8)); [|left; reflexivity].
  intros z _. eapply exact_ext with (1 := exact_map _ _ _ _ _ _ (fun ns => (WT h lf ns, z)) (fun x => wt_nodes (fst x)) (exact_nodes _ NE FT) (fun l => eq_refl)); try reflexivity.
  intros [[h' lf' ns'] z']. unfold FN. cbn [fst snd wt_height wt_leafs wt_nodes]. split; [intros [X Y]|intros [(X & Y & Z) V]; subst; auto]. assert (h' = h /\ lf' = lf /\ z' = z) as (-> & -> & ->) by (repeat split; congruence). auto.
Qed.
(** ** DacVector *)
Lemma dac_image_ok : forall d, dac_shape d -> dac_write d = Ok (dac_image d).
Proof. intros d (n & E & _). unfold dac_write, dac_image, dac_n. rewrite E. reflexivity. Qed.
Lemma exact_ret : forall A (p : sreader A) x, (forall s, p s = Ok (x, s)) -> exact p (fun _ => []) (fun a => a = x) none.
Proof.
  intros A p x H. split; [intros; cbn; lia|]. intros bs _. rewrite H. split; [|right; eexists; reflexivity]. intros a st. split.
  - intros E. assert (a = x /\ st = (bs, true)) as [-> ->] by (split; congruence). split; auto. left. exists bs. auto.
  - intros [-> [(rest & -> & ->)|(k & K & _)]]; [reflexivity|cbn in K; lia].
Qed.
Lemma exact_same : forall A (p q : sreader A) w F t, (forall s, p s = q s) -> exact q w F t -> exact p w F t.
Proof. intros A p q w F t E [L H]. split; auto. intros bs B. rewrite E. auto. Qed.
Lemma exact_dac : exact s_dac dac_image (fun d => dac_shape d /\ dac_fits d) dac_old.
Proof.
  set (FL := fun v => fv_fits v /\ fv_width v < 64). set (FP := fun p => sb_fits p /\ sb_tips p = []).
  assert (SD : sb_fits sb_default). { unfold sb_fits, bv_fits, size_fits, word_fits, sb_default. cbn [sb_bits sb_block sb_tips bv_size bv_words length]. repeat split; first [reflexivity|repeat constructor; reflexivity]. }
  assert (HP : exact (s_sb false sb_default) (sb_write false) FP (sb_old false sb_default)) by (eapply exact_ext with (1 := exact_sb false sb_default SD); try reflexivity; intros s; unfold FP; cbn [sb_tips sb_default]; tauto).
  set (WU := fun d => concat (map write_size (dac_units d))). set (WL := fun d => concat (map fv_write (dac_layers d))). set (WP := fun d => concat (map (sb_write false) (dac_paths d))).
  set (G := fun n d => (length (dac_units d) = n /\ Forall size_fits (dac_units d)) /\ (length (dac_layers d) = n /\ Forall FL (dac_layers d)) /\ (length (dac_paths d) = n - 1 /\ Forall FP (dac_paths d)) /\ dac_num d = Some n).
  apply exact_ext with (w := fun d => write_size (dac_n d) ++ (WU d ++ WL d ++ WP d)) (F := fun d => size_fits (dac_n d) /\ G (dac_n d) d) (tl := dac_old); try reflexivity.
  2: { intros d. unfold dac_shape, dac_fits, G. fold FL. fold FP. split.
       - intros (X & (A1 & A2) & (B1 & B2) & (C1 & C2) & D). split; [exists (dac_n d); auto|]. rewrite A1. auto.
       - intros ((n & D & A1 & B1 & C1) & X & A2 & B2 & C2). assert (E : dac_n d = n) by (unfold dac_n; rewrite D; reflexivity). rewrite E, <- A1 in *. rewrite A1 in *. auto 10. }
  unfold s_dac. apply (exact_bind nat dac s_size _ write_size size_fits none dac_n (fun d => WU d ++ WL d ++ WP d) (fun d => G (dac_n d) d) dac_old exact_size); [|left; reflexivity].
  intros n _. apply exact_ext with (w := fun d => WU d ++ WL d ++ WP d) (F := G n) (tl := dac_old); try reflexivity.
  2: { intros d. split; [|intros [X <-]; exact X]. intros X. assert (E : dac_n d = n) by (unfold dac_n; destruct X as (_ & _ & _ & ->); reflexivity). rewrite E. auto. }
  destruct n as [|[|n]].
  - eapply exact_ext with (1 := exact_ret dac _ (Dac (Some 0) [] [] []) (fun s => eq_refl)).
    + intros [nu us ls ps]. unfold G. cbn [dac_num dac_units dac_layers dac_paths]. split; [intros X; injection X as -> -> -> ->; cbn [length]; auto 10|]. intros ((A1 & _) & (B1 & _) & (C1 & _) & ->). destruct us, ls, ps; try discriminate. reflexivity.
    + intros d ->. reflexivity.
    + intros d ->. reflexivity.
  - apply exact_ext with (w := fun d => WU d ++ WL d) (F := fun d => (length (dac_units d) = 1 /\ Forall size_fits (dac_units d)) /\ ((length (dac_layers d) = 1 /\ Forall FL (dac_layers d)) /\ dac_paths d = [] /\ dac_num d = Some 1)) (tl := fun d => last_old fv_old (dac_layers d)).
    + apply (exact_bind (list nat) dac (s_rep 1 s_size) _ (fun l => concat (map write_size l)) (fun l => length l = 1 /\ Forall size_fits l) (last_old none) dac_units WL (fun d => (length (dac_layers d) = 1 /\ Forall FL (dac_layers d)) /\ dac_paths d = [] /\ dac_num d = Some 1) (fun d => last_old fv_old (dac_layers d)) (exact_rep nat 0 _ _ _ _ exact_size strict_size 0)).
      2: { right. intros us. apply strict_bind, strict_rep, strict_fv. }
      intros us _. apply exact_same with (q := rd ls <- s_rep 1 s_fv; sret (Dac (Some 1) us ls [])); [reflexivity|].
      eapply exact_ext with (1 := exact_map _ _ _ _ _ _ (fun ls => Dac (Some 1) us ls []) dac_layers (exact_rep fitvec (fv_make 1) _ _ _ _ exact_fv strict_fv 0) (fun l => eq_refl)); try reflexivity.
      intros [nu us' ls ps]. cbn [dac_num dac_units dac_layers dac_paths]. split; [intros [X Y]|intros [(X & -> & ->) ->]; auto]. assert (nu = Some 1 /\ us' = us /\ ps = []) as (-> & -> & ->) by (repeat split; congruence). auto.
    + intros d. unfold G. cbn [Nat.sub]. split; [intros (A & B & C & D); rewrite C; cbn [length]; auto 10|]. intros (A & B & (C & _) & D). destruct (dac_paths d); [auto|discriminate].
    + intros d (_ & _ & C & _). unfold WP. rewrite C. cbn [map concat]. rewrite app_nil_r. reflexivity.
    + intros d (_ & _ & C & _). unfold dac_old. rewrite C. reflexivity.
  - set (T := fun d => last_old (sb_old false sb_default) (dac_paths d)). set (m := S (S n)) in *.
    apply exact_ext with (w := fun d => WU d ++ WL d ++ WP d) (F := fun d => (length (dac_units d) = m /\ Forall size_fits (dac_units d)) /\ ((length (dac_layers d) = m /\ Forall FL (dac_layers d)) /\ (length (dac_paths d) = S n /\ Forall FP (dac_paths d)) /\ dac_num d = Some m)) (tl := T); try reflexivity.
    + apply (exact_bind (list nat) dac (s_rep m s_size) _ (fun l => concat (map write_size l)) (fun l => length l = m /\ Forall size_fits l) (last_old none) dac_units (fun d => WL d ++ WP d) (fun d => (length (dac_layers d) = m /\ Forall FL (dac_layers d)) /\ (length (dac_paths d) = S n /\ Forall FP (dac_paths d)) /\ dac_num d = Some m) T (exact_rep nat 0 _ _ _ _ exact_size strict_size (S n))).
      2: { right. intros us. apply strict_bind, strict_rep, strict_fv. }
      intros us _. apply exact_ext with (w := fun d => WL d ++ WP d) (F := fun d => (length (dac_layers d) = m /\ Forall FL (dac_layers d)) /\ ((length (dac_paths d) = S n /\ Forall FP (dac_paths d)) /\ dac_num d = Some m /\ dac_units d = us)) (tl := T); try reflexivity; [|intros; tauto].
      apply (exact_bind (list fitvec) dac (s_rep m s_fv) _ (fun l => concat (map fv_write l)) (fun l => length l = m /\ Forall FL l) (last_old fv_old) dac_layers WP (fun d => (length (dac_paths d) = S n /\ Forall FP (dac_paths d)) /\ dac_num d = Some m /\ dac_units d = us) T (exact_rep fitvec (fv_make 1) _ _ _ _ exact_fv strict_fv (S n))).
      2: { right. intros ls. apply strict_bind. apply (strict_rep sbv n), strict_sb. }
      intros ls _. eapply exact_ext with (1 := exact_map _ _ _ _ _ _ (fun ps => Dac (Some m) us ls ps) dac_paths (exact_rep sbv sb_default _ _ _ _ HP (strict_sb _ _) n) (fun l => eq_refl)); try reflexivity.
      intros [nu us' ls' ps]. cbn [dac_num dac_units dac_layers dac_paths]. split; [intros [X Y]|intros [(X & -> & ->) ->]; auto]. assert (nu = Some m /\ us' = us /\ ls' = ls) as (-> & -> & ->) by (repeat split; congruence). auto.
    + intros d (_ & _ & (C & _) & _). unfold T, dac_old. destruct (dac_paths d); [discriminate|reflexivity].
Qed.
