(** Property C133 (string_util/SuffixArray.hpp). *)
From Coq Require Import List NArith ZArith Arith Bool Lia.
From Verif Require Import Base SuffixModel SaisCostModel SaisCost.
Import ListNotations.
Local Open Scope nat_scope.

(** [k]: iterations of the loops of Sais_ and the functions it calls; [sizes]: the lengths of the strings it is called on, the
    outermost first; [c]: comparisons of characters for the LCP array. The last conjunct bounds the depth of the recursion. *)
Theorem C133_linear : forall s, s <> [] -> Forall (fun c => (0 < c < 128)%N) s -> (N.of_nat (length s) < 2 ^ 31)%N ->
  exists sa lcp k sizes c, suffix_array_count s = Ok (sa, lcp, k, sizes, c) /\ suffix_array s = Ok (sa, lcp) /\
    k <= 31 * length s + 1055 /\ c <= 3 * length s + 1 /\
    hd 0 sizes = S (length s) /\ (forall i, S i < length sizes -> 2 * nth (S i) sizes 0 <= nth i sizes 0) /\ fold_right Nat.add 0 sizes <= 2 * S (length s) /\ 2 ^ length sizes <= S (length s).
Proof. exact suffix_array_cost. Qed.
Print Assumptions C133_linear.
Example C133_ex : rmap (fun r => (snd (fst (fst r)), snd (fst r), snd r)) (suffix_array_count [2; 1; 2; 1; 2; 2; 1; 2; 1; 2; 1; 2]%N) = Ok (1239, [13; 6], 16).
Proof. vm_compute. reflexivity. Qed.

(** without the counters it is the constructor of SuffixModel.v *)
Theorem C133_same : forall s, rmap (fun r => fst (fst (fst r))) (suffix_array_count s) = suffix_array s.
Proof. exact suffix_array_same. Qed.
Print Assumptions C133_same.
