(** Inputs on which SuffixArray has undefined behaviour. *)
From Coq Require Import List NArith ZArith Arith Bool Lia.
From Verif Require Import Base Spec5 FitVectorModel SuffixModel.
Import ListNotations.
Local Open Scope nat_scope.

Lemma count_high : forall str a, Exists (fun c => (N.of_nat (length a) <= c)%N) str -> foldM (fun l c => do n <- cget l c; cset l c (S n)) str a = UB.
Proof.
  induction str as [|c str IH]; intros a H; [inversion H|]. cbn [foldM]. unfold cget, cset.
  destruct (N.ltb_spec c (N.of_nat (length a))) as [L|L]; [|reflexivity].
  assert (X : N.to_nat c < length a) by lia. rewrite (lget_nth _ _ _ 0 X). cbn [bind]. rewrite lset_Ok by exact X. cbn [bind]. apply IH.
  rewrite upd_length. apply Exists_cons in H. destruct H as [H|H]; [lia|exact H].
Qed.
Theorem high_byte_UB : forall s c, In c s -> (128 <= c)%N -> suffix_array s = UB.
Proof.
  intros s c I H. assert (U : count_chars 255 (sais_str s) = UB).
  { apply count_high. rewrite repeat_length. apply Exists_exists. exists (c + (2 ^ 64 - 256))%N. split.
    - unfold sais_str. apply in_or_app. left. apply in_map_iff. exists c. split; auto. destruct (N.ltb_spec c 128); [lia|reflexivity].
    - change (N.of_nat 256) with 256%N. change (2 ^ 64 - 256)%N with 18446744073709551360%N. lia. }
  unfold suffix_array, build_sa. cbn [sais]. unfold induce, make_buckets. rewrite U. reflexivity.
Qed.
Theorem empty_UB : suffix_array [] = UB.
Proof. reflexivity. Qed.
