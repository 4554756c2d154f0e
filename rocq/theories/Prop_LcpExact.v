(** C115: the LCP array for an arbitrary order of the suffixes. *)
From Coq Require Import List NArith ZArith Arith Bool Lia Permutation.
From Verif Require Import Base Spec5 FitVectorModel SuffixModel LcpExact.
Import ListNotations.
Local Open Scope nat_scope.

Theorem C115_any_order : forall s v l, s <> [] -> (N.of_nat (length s) < 2 ^ 31)%N -> Permutation l (seq 0 (length s)) -> fv_list v = Ok (map N.of_nat l) ->
  exists w a, build_lcp s v = Ok w /\ fv_list w = Ok (map N.of_nat a) /\ length a = length s /\
    (forall p q, p < length s -> S q < length s -> nth q l 0 = S (nth p l 0) ->
      nth q a 0 = (nth p a 0 - 1) + common_prefix (skipn (nth q l 0 + (nth p a 0 - 1)) s) (skipn (nth (S q) l 0 + (nth p a 0 - 1)) s)) /\
    (forall q, S q < length s -> nth q l 0 = 0 -> nth q a 0 = common_prefix (skipn (nth q l 0) s) (skipn (nth (S q) l 0) s)) /\
    nth (length s - 1) a 0 = 0 /\ (forall q, S q < length s -> common_prefix (skipn (nth q l 0) s) (skipn (nth (S q) l 0) s) <= nth q a 0) /\
    ((forall q, S q < length s -> nth q a 0 = common_prefix (skipn (nth q l 0) s) (skipn (nth (S q) l 0) s)) <->
     (forall p q, S p < length s -> S q < length s -> nth q l 0 = S (nth p l 0) ->
       common_prefix (skipn (nth p l 0) s) (skipn (nth (S p) l 0) s) <= common_prefix (skipn (nth q l 0) s) (skipn (nth (S q) l 0) s) + 1)).
Proof. exact lcp_exact. Qed.
Print Assumptions C115_any_order.
(** the order computed for "badbac" is not sorted; one entry is too large *)
Example C115_example : exists v lcp w, suffix_array [98; 97; 100; 98; 97; 99]%N = Ok (v, lcp) /\ fv_list v = Ok (map N.of_nat [4; 1; 0; 3; 5; 2]) /\ Permutation [4; 1; 0; 3; 5; 2] (seq 0 6) /\ build_lcp [98; 97; 100; 98; 97; 99]%N v = Ok w /\ fv_list w = Ok (map N.of_nat [1; 1; 2; 0; 0; 0]).
Proof.
  eexists. eexists. eexists. split; [vm_compute; reflexivity|]. split; [vm_compute; reflexivity|]. split; [|split; vm_compute; reflexivity].
  apply NoDup_Permutation_bis; [repeat constructor; cbn; intuition discriminate|reflexivity|]. intros x H. apply in_seq. cbn [In] in *. lia.
Qed.
