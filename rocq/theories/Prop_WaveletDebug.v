(** Property C97 (WaveletTree.hpp with assertions on). *)
From Coq Require Import List NArith ZArith Lia Bool Arith.
From Verif Require Import Base Spec Spec2 FitVectorModel WaveletModel WaveletDebugModel WaveletDebug.
Import ListNotations.
Local Open Scope nat_scope.

(** ** C97 *)
Theorem C97_wavelet_rank_assertion : forall l c, l <> [] -> Forall (fun x => (x < 2 ^ 31)%N) l -> (N.of_nat (length l) < 2 ^ 63)%N -> (c < 256)%N ->
  exists t, wt_make l = Ok t /\
    let h := bits_needed (max_element l) in let c' := (c mod 2 ^ N.of_nat h)%N in
    (forall i, i < length l -> wt_rank_c_d t c i = if (c' =? nth i l 0)%N then Ok (count_if (fun x => (x =? c')%N) (firstn i l)) else Throw) /\
    ((exists k, 1 <= k <= h /\ (c' < 2 ^ N.of_nat k)%N /\ count_if (fun x => (x <? 2 ^ N.of_nat k)%N) l mod 64 = 0 /\ count_if (fun x => (x <? 2 ^ N.of_nat k)%N) l <> 0) -> wt_rank_c_d t c (length l) = UB) /\
    (~ (exists k, 1 <= k <= h /\ (c' < 2 ^ N.of_nat k)%N /\ count_if (fun x => (x <? 2 ^ N.of_nat k)%N) l mod 64 = 0 /\ count_if (fun x => (x <? 2 ^ N.of_nat k)%N) l <> 0) ->
       wt_rank_c_d t c (length l) = if (c' =? 0)%N then Ok (count_if (fun x => (x =? 0)%N) l) else Throw).
Proof. exact rank_debug. Qed.
Print Assumptions C97_wavelet_rank_assertion.
Example C97_ex : let l := [3; 2; 0; 3; 5; 1; 3; 1]%N in
  (do t <- wt_make l; wt_rank_c_d t 3 3) = Ok 1 /\ (do t <- wt_make l; wt_rank_c_d t 2 3) = Throw /\ (do t <- wt_make l; wt_rank_c t 2 3) = Ok 1 /\
  (do t <- wt_make l; wt_rank_c_d t 3 8) = Throw /\ (do t <- wt_make l; wt_rank_c t 3 8) = Ok 3 /\ (do t <- wt_make l; wt_rank_c_d t 0 8) = Ok 1.
Proof. cbv zeta. do 5 (split; [vm_compute; reflexivity|]). vm_compute. reflexivity. Qed.
