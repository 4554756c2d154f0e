(** C45, C46, C47, C50, C51, C64: the matchers of PatternMatching.hpp without a factor oracle. *)
From Coq Require Import List NArith ZArith Arith Bool.
From Verif Require Import Base Spec4 PatternModel PatternProof KmpProof SundayProof.
Import ListNotations.
Local Open Scope nat_scope.

Theorem C45_simple : forall text key, match_simple text key = Ok (occurrences key text).
Proof. exact simple_correct. Qed.
Print Assumptions C45_simple.
Example C45_example : match_simple [97; 98; 97; 98; 97]%N [97; 98; 97]%N = Ok [0; 2] /\ match_simple [97]%N [97; 98]%N = Ok [].
Proof. split; vm_compute; reflexivity. Qed.

(** missing from the full claim: the byte behind the key is read, so it has to exist and must not occur in the text *)
Theorem C46_terminated_partial : forall text key z, key <> [] -> ~ In z text -> match_kmp [z] text key = Ok (occurrences key text).
Proof. exact kmp_terminated. Qed.
Print Assumptions C46_terminated_partial.
Example C46_terminated_example : ~ In 0%N [97; 97; 98; 97; 97; 97; 98]%N /\ match_kmp [0%N] [97; 97; 98; 97; 97; 97; 98]%N [97; 97; 98]%N = Ok [0; 4].
Proof. split; [simpl; intuition discriminate|vm_compute; reflexivity]. Qed.
(** nothing behind the key is read if the only occurrence, if any, is at the end of the text *)
Theorem C46_no_inner_match_partial : forall text key, key <> [] -> (forall i, i + length key < length text -> occurs_at key text i = false) ->
  match_kmp [] text key = Ok (occurrences key text).
Proof. exact kmp_strict. Qed.
Print Assumptions C46_no_inner_match_partial.
Example C46_no_inner_match_example : forallb (fun i => negb (occurs_at [97; 98; 97]%N [97; 98; 98; 97; 98; 97]%N i)) [0; 1; 2] = true /\ match_kmp [] [97; 98; 98; 97; 98; 97]%N [97; 98; 97]%N = Ok [3].
Proof. split; vm_compute; reflexivity. Qed.
Theorem C46_reads_past_key_refuted : exists text key, key <> [] /\ match_kmp [] text key = UB.
Proof. exists [97; 98]%N, [97]%N. split; [discriminate|vm_compute; reflexivity]. Qed.
Print Assumptions C46_reads_past_key_refuted.
(** even with the terminator of std::string, if the text holds a zero byte *)
Theorem C46_zero_byte_refuted : exists text key, key <> [] /\ match_kmp [0%N] text key = UB.
Proof. exists [97; 0; 98]%N, [97]%N. split; [discriminate|vm_compute; reflexivity]. Qed.
Print Assumptions C46_zero_byte_refuted.

(** missing from the full claim: bytes from 128 on *)
Theorem C47_ascii_partial : forall text key, key <> [] -> bytes_below 128 text -> bytes_below 128 (removelast key) -> match_bm text key = Ok (occurrences key text).
Proof. exact bm_correct. Qed.
Print Assumptions C47_ascii_partial.
Example C47_example : bytes_below 128 [97; 98; 97; 98; 97]%N /\ bytes_below 128 (removelast [97; 98; 200]%N) /\ match_bm [97; 98; 97; 98; 97]%N [97; 98; 97]%N = Ok [0; 2].
Proof. split; [repeat constructor|]. split; [repeat constructor|vm_compute; reflexivity]. Qed.
Theorem C47_high_text_refuted : exists text key, key <> [] /\ bytes_below 256 text /\ bytes_below 128 key /\ match_bm text key = UB.
Proof. exists [200]%N, [97]%N. split; [discriminate|]. split; [repeat constructor|]. split; [repeat constructor|vm_compute; reflexivity]. Qed.
Print Assumptions C47_high_text_refuted.
Theorem C47_high_key_refuted : exists text key, key <> [] /\ bytes_below 128 text /\ bytes_below 256 key /\ match_bm text key = UB.
Proof. exists [97]%N, [200; 97]%N. split; [discriminate|]. split; [repeat constructor|]. split; [repeat constructor|vm_compute; reflexivity]. Qed.
Print Assumptions C47_high_key_refuted.

(** missing from the full claim: keys with bytes from 128 on, texts with byte 255, texts shorter than the key *)
Theorem C50_domain_partial : forall text key, bytes_below 128 key -> bytes_below 255 text -> (N.of_nat (length text) < 2 ^ 64)%N -> length key <= length text ->
  match_qs text key = Ok (occurrences key text).
Proof. exact (fun text key a b c d => qs_correct text key (conj a (conj b (conj c d)))). Qed.
Print Assumptions C50_domain_partial.
Example C50_example : bytes_below 128 [97; 98; 97]%N /\ bytes_below 255 [97; 98; 97; 254; 98; 97; 98; 97]%N /\ match_qs [97; 98; 97; 254; 98; 97; 98; 97]%N [97; 98; 97]%N = Ok [0; 5].
Proof. split; [repeat constructor|]. split; [repeat constructor|vm_compute; reflexivity]. Qed.
(** every text shorter than the key is read out of bounds *)
Theorem C50_short_text_refuted : (forall text key, bytes_below 128 key -> (N.of_nat (length key) < 2 ^ 64)%N -> length text < length key -> match_qs text key = UB) /\
  exists text key : list N, bytes_below 128 key /\ (N.of_nat (length key) < 2 ^ 64)%N /\ length text < length key.
Proof. split; [exact qs_short|]. exists [97]%N, [97; 98]%N. split; [repeat constructor|]. split; [vm_compute; reflexivity|repeat constructor]. Qed.
Print Assumptions C50_short_text_refuted.
Theorem C50_high_bytes_refuted : exists text key, bytes_below 256 text /\ bytes_below 256 key /\ length key <= length text /\ match_qs text key = UB.
Proof. exists [200; 97]%N, [200]%N. split; [repeat constructor|]. split; [repeat constructor|]. split; [repeat constructor|vm_compute; reflexivity]. Qed.
Print Assumptions C50_high_bytes_refuted.
Theorem C50_byte_255_refuted : exists text key, bytes_below 256 text /\ bytes_below 128 key /\ length key <= length text /\ match_qs text key = UB.
Proof. exists [97; 255]%N, [97]%N. split; [repeat constructor|]. split; [repeat constructor|]. split; [repeat constructor|vm_compute; reflexivity]. Qed.
Print Assumptions C50_byte_255_refuted.

(** missing from the full claim: keys with bytes from 128 on, texts with byte 255, texts shorter than the key *)
Theorem C51_domain_partial : forall text key, bytes_below 128 key -> bytes_below 255 text -> (N.of_nat (length text) < 2 ^ 64)%N -> length key <= length text ->
  match_ms text key = Ok (occurrences key text).
Proof. exact (fun text key a b c d => ms_correct text key (conj a (conj b (conj c d)))). Qed.
Print Assumptions C51_domain_partial.
Example C51_example : bytes_below 128 [97; 98; 97]%N /\ bytes_below 255 [97; 98; 97; 254; 98; 97; 98; 97]%N /\ match_ms [97; 98; 97; 254; 98; 97; 98; 97]%N [97; 98; 97]%N = Ok [0; 5].
Proof. split; [repeat constructor|]. split; [repeat constructor|vm_compute; reflexivity]. Qed.
Theorem C51_short_text_refuted : (forall text key, bytes_below 128 key -> (N.of_nat (length key) < 2 ^ 64)%N -> length text < length key -> match_ms text key = UB) /\
  exists text key : list N, bytes_below 128 key /\ (N.of_nat (length key) < 2 ^ 64)%N /\ length text < length key.
Proof. split; [exact ms_short|]. exists [97]%N, [97; 98]%N. split; [repeat constructor|]. split; [vm_compute; reflexivity|repeat constructor]. Qed.
Print Assumptions C51_short_text_refuted.
Theorem C51_byte_255_refuted : exists text key, bytes_below 256 text /\ bytes_below 128 key /\ length key <= length text /\ match_ms text key = UB.
Proof. exists [97; 255]%N, [97]%N. split; [repeat constructor|]. split; [repeat constructor|]. split; [repeat constructor|vm_compute; reflexivity]. Qed.
Print Assumptions C51_byte_255_refuted.

Theorem C64_agree : forall text key, key <> [] -> length key <= length text -> (N.of_nat (length text) < 2 ^ 64)%N -> Forall (fun c => (0 < c < 128)%N) text -> bytes_below 128 key ->
  exists r, match_simple text key = Ok r /\ match_kmp [0%N] text key = Ok r /\ match_bm text key = Ok r /\ match_qs text key = Ok r /\ match_ms text key = Ok r.
Proof. exact matchers_agree. Qed.
Print Assumptions C64_agree.
Example C64_example : Forall (fun c => (0 < c < 128)%N) [98; 97; 97; 97; 98]%N /\ match_ms [98; 97; 97; 97; 98]%N [97; 97]%N = Ok [1; 2].
Proof. split; [repeat constructor|vm_compute; reflexivity]. Qed.
