(** C140: how long Kmp spends on a single character of the text. *)
From Coq Require Import List NArith ZArith Arith Bool.
From Verif Require Import Base Spec33 PatternModel PatternCostModel DelayModel DelayProof DelaySharp.
Import ListNotations.
Local Open Scope nat_scope.

Theorem C140_delay : forall beyond text key l, key <> [] -> match_kmp beyond text key = Ok l ->
  exists ds k1, match_kmp_delays beyond text key = Ok ds /\ length ds = length text /\ match_kmp_count beyond text key = Ok (k1, (list_sum ds, l)) /\
    Forall (fun d => fib (d + 1) <= length key + 1 /\ d <= 2 * Nat.log2 (length key + 1) + 1) ds.
Proof. exact kmp_delay. Qed.
Print Assumptions C140_delay.
(** abaababaabaab against abaababaabac: five comparisons with the last character *)
Example C140_delay_ex : let key := [97; 98; 97; 97; 98; 97; 98; 97; 97; 98; 97; 97; 98]%N in let text := firstn 11 key ++ [99]%N in
  match_kmp [0]%N text key = Ok [] /\ match_kmp_delays [0]%N text key = Ok (repeat 1 11 ++ [5]) /\ fib (5 + 1) = 8.
Proof. vm_compute. auto. Qed.

(** Fibonacci words need that long *)
Theorem C140_sharp : forall d, 1 <= d -> exists key text ds d', length key + 1 = fib (d + 2) /\ length text = length key /\ match_kmp_delays [] text key = Ok ds /\ In d' ds /\ d <= d'.
Proof. exact kmp_delay_sharp. Qed.
Print Assumptions C140_sharp.
Example C140_sharp_ex : let key := [97; 98; 97; 97; 98; 97; 98]%N in length key + 1 = fib (4 + 2) /\ match_kmp_delays [] (firstn 6 key ++ [99]%N) key = Ok [1; 1; 1; 1; 1; 1; 4].
Proof. vm_compute. auto. Qed.
