(** C48, C49, C52, C53, C54: the factor oracle and the matchers built on it. *)
From Coq Require Import List NArith ZArith Arith Bool.
From Verif Require Import Base Spec4 PatternModel FoModel FoProof FoWitness BomProof.
Import ListNotations.
Local Open Scope nat_scope.

(** missing from the full claim: texts with a zero byte, and texts for which the construction does not end *)
Theorem C52_nonzero_partial : forall fuel text o a w b, Forall (fun c => (0 < c < 256)%N) text -> text = a ++ w ++ b -> fo_build fuel text = Ok o -> fo_accept [] o w = Ok true.
Proof. exact accepts_factors. Qed.
Print Assumptions C52_nonzero_partial.
Example C52_example : exists o, fo_build 300 [97; 98; 98; 97; 99]%N = Ok o /\ fo_accept [] o [98; 97; 99]%N = Ok true /\ fo_accept [] o [99; 97]%N = UB /\ fo_accept [] o [98; 98; 98]%N = Ok false.
Proof. eexists. split; [vm_compute; reflexivity|]. repeat split; vm_compute; reflexivity. Qed.
Theorem C52_zero_byte_refuted : exists fuel text o w a b, bytes_below 256 text /\ text = a ++ w ++ b /\ fo_build fuel text = Ok o /\ fo_accept [] o w = Ok false.
Proof. exists 300, [1; 1; 0; 2]%N. eexists. exists [0%N], [1; 1]%N, [2%N]. split; [repeat constructor|]. split; [reflexivity|]. split; vm_compute; reflexivity. Qed.
Print Assumptions C52_zero_byte_refuted.

(** missing from the full claim: reads stay inside the arrays only for some queries *)
Theorem C53_weak_partial : forall fuel text o w, Forall (fun c => (0 < c < 256)%N) text -> bytes_below 256 w -> fo_build fuel text = Ok o -> fo_accept [] o w = Ok true -> length w <= length text /\ (length w = length text -> w = text).
Proof. exact accepts_short. Qed.
Print Assumptions C53_weak_partial.
Theorem C53_inside_partial : forall fuel text o w, Forall (fun c => (0 < c < 256)%N) text -> bytes_below 256 w -> ~ In (last text 0%N) (removelast w) -> fo_build fuel text = Ok o -> exists r, fo_accept [] o w = Ok r.
Proof. exact accepts_inside. Qed.
Print Assumptions C53_inside_partial.
(** with a readable byte behind the array which does not occur in the query *)
Theorem C53_padded_partial : forall fuel text o z w, Forall (fun c => (0 < c < 256)%N) text -> bytes_below 256 w -> ~ In z w -> fo_build fuel text = Ok o ->
  exists r, fo_accept [z] o w = Ok r /\ (r = true -> length w <= length text /\ (length w = length text -> w = text)).
Proof. exact accepts_padded. Qed.
Print Assumptions C53_padded_partial.
Example C53_example : exists o, fo_build 300 [97; 98; 98; 97; 99]%N = Ok o /\ fo_accept [] o [97; 98; 98; 97; 99]%N = Ok true /\ fo_accept [] o [97; 98; 97; 98]%N = Ok false /\ fo_accept [0%N] o [99; 97]%N = Ok false.
Proof. eexists. split; [vm_compute; reflexivity|]. repeat split; vm_compute; reflexivity. Qed.
Theorem C53_reads_past_end_refuted : exists fuel text o w, Forall (fun c => (0 < c < 256)%N) text /\ bytes_below 256 w /\ length w <= length text /\ fo_build fuel text = Ok o /\ fo_accept [] o w = UB.
Proof. exists 300, [97; 98]%N. eexists. exists [98; 98]%N. split; [repeat constructor; vm_compute; reflexivity|]. split; [repeat constructor|]. split; [repeat constructor|]. split; vm_compute; reflexivity. Qed.
Print Assumptions C53_reads_past_end_refuted.
(** a word longer than the text is accepted if the byte behind the array happens to match *)
Theorem C53_longer_word_refuted : exists fuel text o w z, Forall (fun c => (0 < c < 256)%N) text /\ bytes_below 256 w /\ length text < length w /\ fo_build fuel text = Ok o /\ fo_accept [z] o w = Ok true.
Proof. exists 300, [97; 98]%N. eexists. exists [97; 98; 99]%N, 99%N. split; [repeat constructor; vm_compute; reflexivity|]. split; [repeat constructor|]. split; [repeat constructor|]. split; vm_compute; reflexivity. Qed.
Print Assumptions C53_longer_word_refuted.

(** missing from the full claim: texts with more distinct letters *)
Theorem C54_few_letters_partial : forall text, text <> [] -> Forall (fun c => (0 < c < 256)%N) text ->
  (length text - 2) * (length (nodup N.eq_dec text) - 1) + 2 <= 256 * ((length text + 255) / 256) -> exists n o, forall fuel, n <= fuel -> fo_build fuel text = Ok o.
Proof. exact build_terminates. Qed.
Print Assumptions C54_few_letters_partial.
Example C54_few_letters_example : let text := [97; 98; 98; 97; 99; 98; 99; 100]%N in (length text - 2) * (length (nodup N.eq_dec text) - 1) + 2 <= 256 * ((length text + 255) / 256) /\ exists o, fo_build 300 text = Ok o.
Proof. split; [apply Nat.leb_le; vm_compute; reflexivity|]. eexists. vm_compute. reflexivity. Qed.
Theorem C54_two_letters_partial : forall text x y, text <> [] -> Forall (fun c => (0 < c < 256)%N) text -> (forall c, In c text -> c = x \/ c = y) -> exists n o, forall fuel, n <= fuel -> fo_build fuel text = Ok o.
Proof. exact two_letters. Qed.
Print Assumptions C54_two_letters_partial.
Example C54_two_letters_example : exists o, fo_build 300 [97; 98; 98; 97; 97; 98]%N = Ok o.
Proof. eexists. vm_compute. reflexivity. Qed.
Theorem C54_diverges_refuted : exists text, text <> [] /\ Forall (fun c => (0 < c < 256)%N) text /\ forall fuel, fo_build fuel text = Fuel.
Proof. exists w80. split; [discriminate|]. split; [exact w80_bytes|exact w80_diverges]. Qed.
Print Assumptions C54_diverges_refuted.
Theorem C54_empty_refuted : exists text, forall fuel, fo_build fuel text = UB.
Proof. exists []. exact build_empty. Qed.
Print Assumptions C54_empty_refuted.

(** missing from the full claim: the byte behind the array of the oracle is read, so it has to exist and must not occur in the text; keys with a zero byte; keys for which the construction does not end *)
Theorem C48_terminated_partial : forall fuel text key z beyond, key <> [] -> Forall (fun c => (0 < c < 256)%N) key -> bytes_below 256 text -> ~ In z text ->
  match_bom fuel (z :: beyond) text key = Fuel \/ match_bom fuel (z :: beyond) text key = Ok (occurrences key text).
Proof. exact bom_correct. Qed.
Print Assumptions C48_terminated_partial.
Theorem C48_few_letters_partial : forall text key z beyond, key <> [] -> Forall (fun c => (0 < c < 256)%N) key -> bytes_below 256 text -> ~ In z text ->
  (length key - 2) * (length (nodup N.eq_dec key) - 1) + 2 <= 256 * ((length key + 255) / 256) ->
  exists n, forall fuel, n <= fuel -> match_bom fuel (z :: beyond) text key = Ok (occurrences key text).
Proof. exact bom_few_letters. Qed.
Print Assumptions C48_few_letters_partial.
Example C48_example : let text := [97; 98; 97; 98; 99; 97; 98; 97; 97]%N in let key := [97; 98; 97]%N in ~ In 0%N text /\ match_bom 300 [0%N] text key = Ok [0; 5].
Proof. split; [simpl; intuition discriminate|vm_compute; reflexivity]. Qed.
Theorem C48_reads_past_oracle_refuted : exists text key, key <> [] /\ Forall (fun c => (0 < c < 256)%N) key /\ bytes_below 256 text /\ match_bom 300 [] text key = UB.
Proof. exists [97; 98; 97; 98; 99; 97; 98; 97; 97]%N, [97; 98; 97]%N. split; [discriminate|]. split; [repeat constructor; vm_compute; reflexivity|]. split; [repeat constructor|vm_compute; reflexivity]. Qed.
Print Assumptions C48_reads_past_oracle_refuted.
Theorem C48_diverges_refuted : exists key, key <> [] /\ Forall (fun c => (0 < c < 256)%N) key /\ forall fuel beyond text, match_bom fuel beyond text key = Fuel.
Proof.
  exists (rev w80). split; [discriminate|]. split.
  - apply Forall_rev. exact w80_bytes.
  - intros fuel beyond text. unfold match_bom. rewrite rev_involutive, w80_diverges. reflexivity.
Qed.
Print Assumptions C48_diverges_refuted.

(** missing from the full claim: occurrences are missed *)
Theorem C49_sound_partial : forall fuel steps text key z beyond beyond_key l, Forall (fun c => (0 < c < 256)%N) key -> bytes_below 256 text -> ~ In z text ->
  match_tbom fuel steps (z :: beyond) beyond_key text key = Ok l -> forall x, In x l -> In x (occurrences key text).
Proof. exact tbom_reports. Qed.
Print Assumptions C49_sound_partial.
Example C49_example : let text := [97; 98; 97; 98; 99; 97; 98; 97; 97]%N in let key := [97; 98; 97]%N in match_tbom 300 20 [0%N] [0%N] text key = Ok [0; 5].
Proof. vm_compute. reflexivity. Qed.
Theorem C49_missed_match_refuted : exists text key, key <> [] /\ Forall (fun c => (0 < c < 256)%N) key /\ ~ In 0%N text /\ bytes_below 256 text /\ match_tbom 300 20 [0%N] [0%N] text key = Ok [] /\ occurrences key text = [3].
Proof.
  exists [97; 97; 97; 97; 97; 97; 97; 97; 98]%N, [97; 97; 97; 97; 97; 98]%N. split; [discriminate|]. split; [repeat constructor; vm_compute; reflexivity|]. split; [simpl; intuition discriminate|]. split; [repeat constructor|]. split; vm_compute; reflexivity.
Qed.
Print Assumptions C49_missed_match_refuted.
