(** C146: SuffixArray with the counters it keeps in an int. *)
From Coq Require Import List NArith ZArith Arith Bool Lia Permutation.
From Verif Require Import Base Spec Spec6 Spec12 FitVectorModel SuffixModel SuffixIntModel SaisExact SuffixInt SuffixInt2.
Import ListNotations.
Local Open Scope nat_scope.

(** up to 2^31 - 2 characters the array is the one of C102 *)
Theorem C146_order : forall s, s <> [] -> Forall (fun c => (0 < c < 128)%N) s -> (N.of_nat (length s) + 1 < 2 ^ 31)%N ->
  exists sa lcp l, suffix_array_int s = Ok (sa, lcp) /\ fv_list sa = Ok (map N.of_nat l) /\ Permutation l (seq 0 (length s)) /\
  forall i j, i < length s -> j < length s -> listed_before s (nth i l 0) (nth j l 0) <-> i < j.
Proof. intros s NE B L. rewrite short_same by exact L. apply ctor_exact; [exact NE|exact B|lia]. Qed.
Print Assumptions C146_order.
(** and for these lengths, with any bytes, every outcome is that of the model with unbounded counters *)
Theorem C146_short : forall s, (N.of_nat (length s) + 1 < 2 ^ 31)%N -> suffix_array_int s = suffix_array s.
Proof. exact short_same. Qed.
Print Assumptions C146_short.
Example C146_short_ex : exists sa lcp, suffix_array_int [98; 97; 98; 97; 98]%N = Ok (sa, lcp) /\ fv_list sa = Ok [3; 1; 4; 0; 2]%N.
Proof. eexists. eexists. split; [vm_compute; reflexivity|vm_compute; reflexivity]. Qed.

(** a valley with 2^31 - 1 or more smaller characters in the string: the constructor writes out of bounds or aborts *)
Theorem C146_long : forall s p, Forall (fun c => (0 < c < 128)%N) s -> (N.of_nat (length s) < 2 ^ 32)%N -> valley s p -> p < length s ->
  (2 ^ 31 <= N.of_nat (count_if (fun x => x <? nth p s 0)%N s) + 1)%N -> suffix_array_int s = UB \/ suffix_array_int s = Throw.
Proof. exact long_fails. Qed.
Print Assumptions C146_long.
Example C146_long_ex : exists s p, Forall (fun c => (0 < c < 128)%N) s /\ (N.of_nat (length s) < 2 ^ 32)%N /\ valley s p /\ p < length s /\
  (2 ^ 31 <= N.of_nat (count_if (fun x => x <? nth p s 0)%N s) + 1)%N.
Proof.
  assert (E : N.of_nat (N.to_nat (2 ^ 31)) = (2 ^ 31)%N) by apply N2Nat.id. set (m := N.to_nat (2 ^ 31)) in *. clearbody m.
  exists (long_run m), (m + 1). destruct (long_run_fits m) as (A & B & C & D & F). split; [exact A|]. split; [rewrite D; change (2 ^ 31)%N with 2147483648%N in E; change (2 ^ 32)%N with 4294967296%N; lia|].
  split; [exact B|]. split; [exact C|]. rewrite F. lia.
Qed.
