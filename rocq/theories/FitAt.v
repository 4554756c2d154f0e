(** Checked access to a FitVector over every history *)
From Coq Require Import List NArith ZArith Lia Bool Arith.
From Verif Require Import Base Spec Spec7 BitUtilModel BitUtilProof BitUtilProof2 CalcModel BitVectorProof FitVectorModel FitVectorProof FitVectorProof2.
Import ListNotations.
Local Open Scope nat_scope.
Ltac Zify.zify_post_hook ::= idtac.

Lemma tape_num_ext : forall w T T' p, (forall q, T q = T' q) -> tape_num T p w = tape_num T' p w.
Proof. induction w as [|w IH]; intros T T' p E; auto. cbn [tape_num]. now rewrite E, (IH T T'). Qed.

Theorem at_history : forall w ops n T, 1 <= w <= 63 -> Forall op_word ops -> tape_run w (0, fun _ => false) ops = Some (n, T) ->
  exists v, fv_run (fv_make w) ops = Ok v /\
    (forall i, fv_at v i = if i <? n then Ok (tape_num T (i * w) w) else Throw) /\
    (fv_front v = if 0 <? n then Ok (tape_num T 0 w) else UB) /\ (fv_back v = if 0 <? n then Ok (tape_num T ((n - 1) * w) w) else UB) /\
    (forall i x, n <= i -> fv_at_set v i x = Throw) /\
    (forall i x, i < n -> (x < 2 ^ 64)%N -> exists v', fv_at_set v i x = Ok v' /\ forall j, fv_at v' j = if j <? n then Ok (tape_num (tape_store w (i * w) x T) (j * w) w) else Throw).
Proof.
  intros w ops n T Hw F E. destruct (fv_run_tape w ops (fv_make w) 0 (fun _ => false) (n, T)) as (v & S & R); auto.
  - unfold fv_tape. cbn. split; auto. split; auto. split; auto. split; [constructor|]. intros q. unfold bitat. cbn [fv_words]. destruct (q / 64); apply N.bits_0.
  - exists v. split; auto. cbn [fst snd] in R. pose proof R as (Ew & En & L & _).
    assert (At : forall v T, fv_tape w v n T -> forall i, fv_at v i = if i <? n then Ok (tape_num T (i * w) w) else Throw).
    { clear - Hw. intros v T R i. unfold fv_at. pose proof R as (_ & En & _). rewrite En. destruct (Nat.leb_spec n i), (Nat.ltb_spec i n); try lia; auto. now apply (fv_get_tape w v n T). }
    split; [now apply At|]. split; [|split; [|split]].
    + unfold fv_front. destruct (Nat.ltb_spec 0 n) as [H|H]; [exact (fv_get_tape w v n T 0 Hw R H)|]. assert (N0 : n = 0) by lia. rewrite N0 in L. destruct (fv_words v) as [|y ys] eqn:Es; [|unfold fv_word_size in L; simpl in L; discriminate]. unfold fv_get, bits_read. rewrite Ew, Es.
      rewrite WidthMask_ones by lia. reflexivity.
    + unfold fv_back. rewrite En. destruct (Nat.eqb_spec n 0), (Nat.ltb_spec 0 n); try lia; auto. apply (fv_get_tape w v n T); auto. lia.
    + intros i x H. unfold fv_at_set. rewrite En. now rewrite (proj2 (Nat.leb_le n i)).
    + intros i x H Hx. unfold fv_at_set. rewrite En. rewrite (proj2 (Nat.leb_gt n i)) by auto. destruct (fv_set_tape w v n T i x Hw R H Hx) as (v' & E' & R'). exists v'. split; auto.
Qed.
