(** C129: the suffix array of a string with zero bytes. *)
From Coq Require Import List NArith ZArith Arith Bool Lia Permutation.
From Verif Require Import Base Spec5 FitVectorModel SuffixModel SaisZero2.
Import ListNotations.
Local Open Scope nat_scope.

Theorem C129_first : forall b, suffix_array (0%N :: b) = UB.
Proof. exact zero_first. Qed.
Print Assumptions C129_first.
Theorem C129_last : forall a, suffix_array (a ++ [0%N]) = UB.
Proof. exact zero_last. Qed.
Print Assumptions C129_last.
Theorem C129_adjacent : forall a b, suffix_array (a ++ 0%N :: 0%N :: b) = UB.
Proof. exact zero_twice. Qed.
Print Assumptions C129_adjacent.
Theorem C129_single : forall a b, ~ In 0%N a -> ~ In 0%N b -> suffix_array (a ++ 0%N :: b) = UB.
Proof. exact zero_single. Qed.
Print Assumptions C129_single.
Example C129_single_ex : ~ In 0%N [97; 98]%N /\ ~ In 0%N [98; 97; 98]%N /\ suffix_array ([97; 98] ++ 0 :: [98; 97; 98])%N = UB.
Proof. split; [intros H; cbn in H; intuition discriminate|]. split; [intros H; cbn in H; intuition discriminate|]. vm_compute. reflexivity. Qed.
(** several isolated zeros, none at either end: anything can happen *)
Theorem C129_abort : exists s, Forall (fun c => (c < 128)%N) s /\ suffix_array s = Throw.
Proof. exists [2; 1; 4; 0; 3; 1; 5; 0; 3; 1; 3]%N. split; [repeat constructor|]. vm_compute. reflexivity. Qed.
Print Assumptions C129_abort.
Theorem C129_repeats : exists s sa lcp l, Forall (fun c => (c < 128)%N) s /\ suffix_array s = Ok (sa, lcp) /\ fv_list sa = Ok (map N.of_nat l) /\ length l = length s /\ ~ NoDup l.
Proof.
  exists [2; 1; 3; 0; 3; 1; 4; 0; 3; 1; 3]%N. eexists. eexists. exists [7; 3; 1; 1; 5; 0; 2; 2; 8; 4; 6]. split; [repeat constructor|]. split; [vm_compute; reflexivity|]. split; [vm_compute; reflexivity|]. split; [reflexivity|].
  intros H. inversion H; subst. inversion H3; subst. inversion H5; subst. apply H6. left. reflexivity.
Qed.
Print Assumptions C129_repeats.
Theorem C129_misplaced : exists s sa lcp l, Forall (fun c => (c < 128)%N) s /\ suffix_array s = Ok (sa, lcp) /\ fv_list sa = Ok (map N.of_nat l) /\ Permutation l (seq 0 (length s)) /\ ~ sorted_suffixes s l.
Proof.
  exists [97; 0; 98; 0; 97]%N. eexists. eexists. exists [3; 1; 0; 4; 2]. split; [repeat constructor|]. split; [vm_compute; reflexivity|]. split; [vm_compute; reflexivity|]. split.
  - apply NoDup_Permutation_bis; [repeat constructor; cbn; lia|cbn; lia|]. intros x X. cbn in X. apply in_seq. cbn. lia.
  - intros [_ H]. specialize (H 2 3 ltac:(lia) ltac:(cbn [length]; lia)). vm_compute in H. intuition discriminate.
Qed.
Print Assumptions C129_misplaced.
