(** C154: what the SuffixArray constructor prints about the LCP array *)
From Coq Require Import List NArith ZArith Arith Bool Lia.
From Verif Require Import Base Spec FitVectorModel SuffixModel LcpReportSpec LcpReportModel LcpReport.
Import ListNotations.
Local Open Scope nat_scope.

(** printing decides nothing: with the figures left out the outcome is that of the constructor, for every string *)
Theorem C154_same : forall s, (do x <- suffix_array_shown s; Ok (fst x)) = suffix_array s.
Proof. intros s. exact (proj1 (shown_all s)). Qed.
Print Assumptions C154_same.
(** whenever the constructor is defined, the figures describe the stored LCP array *)
Theorem C154_figures : forall s sa lcp r, suffix_array_shown s = Ok (sa, lcp, r) -> exists l, fv_list lcp = Ok l /\ length l = fv_size sa /\
  lr_count r = length l /\ greatest l (lr_max r) /\ lr_mean r = (signed64 (Z.of_N (total l)), length l) /\ upper_median l (lr_median r) /\
  lr_map r = combine (seq 0 (length (per_width l))) (per_width l).
Proof. intros s sa lcp r E. destruct (proj2 (shown_all s) sa lcp r E) as (l & A & _ & B & C). exists l. split; [exact A|]. split; [exact B|]. exact C. Qed.
Print Assumptions C154_figures.
(** "abcabcabd": 9 values; the running index of the size map is one below the width *)
Example C154_figures_ex : (do x <- suffix_array_shown [97; 98; 99; 97; 98; 99; 97; 98; 100]%N; do l <- fv_list (snd (fst x)); Ok (l, snd x)) =
  Ok ([5; 2; 0; 4; 1; 0; 3; 0; 0]%N, LReport 9 5 (15%Z, 9) 1 [(0, 5); (1, 2); (2, 2)]).
Proof. vm_compute. reflexivity. Qed.

(** bytes from 1 to 127, below 2^31 of them: something is printed, and the sum behind the average is exact *)
Theorem C154_exact_sum : forall s, s <> [] -> Forall (fun c => (0 < c < 128)%N) s -> (N.of_nat (length s) < 2 ^ 31)%N ->
  exists sa lcp r l, suffix_array_shown s = Ok (sa, lcp, r) /\ fv_list lcp = Ok l /\ length l = length s /\ lr_count r = length s /\ lr_mean r = (Z.of_N (total l), length s) /\ (lr_max r <= N.of_nat (length s))%N.
Proof. exact shown_ascii. Qed.
Print Assumptions C154_exact_sum.
Example C154_exact_sum_ex : Forall (fun c => (0 < c < 128)%N) [97; 98; 99; 97; 98; 99; 97; 98; 100]%N.
Proof. repeat (constructor; [lia|]). constructor. Qed.

(** no characters: nothing is printed *)
Theorem C154_empty : suffix_array_shown [] = UB.
Proof. vm_compute. reflexivity. Qed.
Print Assumptions C154_empty.
