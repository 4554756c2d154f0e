(** C55, C56: the suffix array and the LCP array. *)
From Coq Require Import List NArith ZArith Arith Bool Lia Permutation.
From Verif Require Import Base Spec4 Spec5 FitVectorModel SuffixModel SuffixProof LcpProof.
Import ListNotations.
Local Open Scope nat_scope.

(** for "babab" the order is 3 1 4 0 2 instead of 3 1 4 2 0 *)
Theorem C55_order_refuted : exists s sa lcp l, Forall (fun c => (0 < c < 128)%N) s /\ suffix_array s = Ok (sa, lcp) /\ fv_list sa = Ok (map N.of_nat l) /\ ~ sorted_suffixes s l.
Proof.
  exists [98; 97; 98; 97; 98]%N. eexists. eexists. exists [3; 1; 4; 0; 2]. split; [repeat constructor|]. split; [vm_compute; reflexivity|]. split; [vm_compute; reflexivity|].
  intros [_ H]. specialize (H 3 4 ltac:(lia) ltac:(cbn [length]; lia)). vm_compute in H. intuition discriminate.
Qed.
Print Assumptions C55_order_refuted.
Theorem C55_high_bytes_undefined : forall s c, In c s -> (128 <= c)%N -> suffix_array s = UB.
Proof. exact high_byte_UB. Qed.
Print Assumptions C55_high_bytes_undefined.
Theorem C55_empty_undefined : suffix_array [] = UB.
Proof. exact empty_UB. Qed.
Print Assumptions C55_empty_undefined.
Theorem C55_zero_byte_refuted : exists s, bytes_below 128 s /\ s <> [] /\ suffix_array s = UB.
Proof. exists [97; 0; 98]%N. split; [repeat constructor|]. split; [discriminate|vm_compute; reflexivity]. Qed.
Print Assumptions C55_zero_byte_refuted.

(** missing from the full claim: suffix orders which are not sorted *)
Theorem C56_sorted_partial : forall s v l, s <> [] -> (N.of_nat (length s) < 2 ^ 31)%N -> sorted_suffixes s l -> fv_list v = Ok (map N.of_nat l) ->
  exists w, build_lcp s v = Ok w /\ fv_list w = Ok (map (fun p => N.of_nat (if S p <? length s then common_prefix (skipn (nth p l 0) s) (skipn (nth (S p) l 0) s) else 0)) (seq 0 (length s))).
Proof. exact lcp_stmt. Qed.
Print Assumptions C56_sorted_partial.
Example C56_example : exists sa lcp, suffix_array [98; 97; 110; 97; 110; 97]%N = Ok (sa, lcp) /\ fv_list sa = Ok [5; 3; 1; 0; 4; 2]%N /\ fv_list lcp = Ok [1; 3; 0; 0; 2; 0]%N /\ sorted_suffixes [98; 97; 110; 97; 110; 97]%N [5; 3; 1; 0; 4; 2].
Proof.
  eexists. eexists. split; [vm_compute; reflexivity|]. split; [vm_compute; reflexivity|]. split; [vm_compute; reflexivity|]. split.
  - apply NoDup_Permutation_bis; [repeat constructor; cbn; intuition discriminate|reflexivity|]. intros x H. apply in_seq. cbn [In length] in *. lia.
  - intros p q H K. cbn [length] in K.  do 6 (destruct p as [|p]; [do 6 (destruct q as [|q]; [first [lia | vm_compute; intuition reflexivity]|]); lia|]). lia.
Qed.
(** in the order computed for "badbac" the second entry is 1, but "adbac" and "badbac" have no common prefix *)
Theorem C56_order_refuted : exists s sa lcp l, Forall (fun c => (0 < c < 128)%N) s /\ suffix_array s = Ok (sa, lcp) /\ fv_list sa = Ok (map N.of_nat l) /\
  fv_get lcp 1 <> Ok (N.of_nat (common_prefix (skipn (nth 1 l 0) s) (skipn (nth 2 l 0) s))).
Proof. exists [98; 97; 100; 98; 97; 99]%N. eexists. eexists. exists [4; 1; 0; 3; 5; 2]. split; [repeat constructor|]. split; [vm_compute; reflexivity|]. split; [vm_compute; reflexivity|]. vm_compute. discriminate. Qed.
Print Assumptions C56_order_refuted.
