(** C81: what the matchers do with arbitrary bytes. *)
From Coq Require Import List NArith ZArith Arith Bool Lia.
From Verif Require Import Base Spec4 PatternModel MatchSpec MatchProof.
Import ListNotations.
Local Open Scope nat_scope.

(** Bm: undefined exactly if a character of the key but the last, or a character under the end of a window, is negative; right otherwise *)
Theorem C81_bm : forall text key, key <> [] ->
  (bytes_below 128 (removelast key) -> (forall w, bm_reaches key text (length key - 1) w -> w < length text -> (nth w text 0 < 128)%N) -> match_bm text key = Ok (occurrences key text)) /\
  (~ bytes_below 128 (removelast key) -> match_bm text key = UB) /\
  (forall w, bm_reaches key text (length key - 1) w -> w < length text -> (128 <= nth w text 0)%N -> match_bm text key = UB).
Proof. exact bm_exact. Qed.
Print Assumptions C81_bm.
(** SundayQS: undefined exactly if the key has a negative character, the text is shorter than the key, or the byte 255 stands behind a window; right otherwise *)
Theorem C81_qs : forall text key, bytes_below 256 text -> (N.of_nat (length text) < 2 ^ 64)%N -> (N.of_nat (length key) < 2 ^ 64)%N ->
  (bytes_below 128 key -> length key <= length text -> (forall w, qs_reaches key text 0 w -> w + length key < length text -> nth (w + length key) text 0%N <> 255%N) -> match_qs text key = Ok (occurrences key text)) /\
  (~ bytes_below 128 key -> match_qs text key = UB) /\ (length text < length key -> match_qs text key = UB) /\
  (forall w, qs_reaches key text 0 w -> w + length key < length text -> nth (w + length key) text 0%N = 255%N -> match_qs text key = UB).
Proof. exact qs_exact. Qed.
Print Assumptions C81_qs.
(** SundayMS: never a wrong answer; right if no byte 255 stands behind the first window *)
Theorem C81_ms : forall text key, bytes_below 256 text -> (N.of_nat (length text) < 2 ^ 64)%N -> (N.of_nat (length key) < 2 ^ 64)%N ->
  (match_ms text key = UB \/ match_ms text key = Ok (occurrences key text)) /\
  (bytes_below 128 key -> length key <= length text -> (forall j, length key <= j < length text -> nth j text 0%N <> 255%N) -> match_ms text key = Ok (occurrences key text)) /\
  (~ bytes_below 128 key -> match_ms text key = UB) /\ (length text < length key -> match_ms text key = UB).
Proof. exact ms_exact. Qed.
Print Assumptions C81_ms.
(** Kmp: right unless an occurrence is followed by the byte that follows the key in memory. At the first such place it
    loses all later occurrences, or reads out of range if the memory behind the key does not repeat the rest of the text *)
Theorem C81_kmp : forall beyond text key, key <> [] ->
  ((forall e, ~ escapes beyond text key e) -> match_kmp beyond text key = Ok (occurrences key text)) /\
  (forall e, escapes beyond text key e -> (forall e', e' < e -> ~ escapes beyond text key e') ->
    (begins_with beyond (skipn e text) -> match_kmp beyond text key = Ok (filter (fun x => x + length key <=? e) (occurrences key text))) /\
    (~ begins_with beyond (skipn e text) -> match_kmp beyond text key = UB)).
Proof. exact kmp_exact. Qed.
Print Assumptions C81_kmp.

(** "abc" in a text with negative characters that no window ends at *)
Example C81_bm_example : let text := [200; 200; 120; 97; 98; 99]%N in let key := [97; 98; 99]%N in
  (forall w, bm_reaches key text 2 w -> w < length text -> (nth w text 0 < 128)%N) /\ match_bm text key = Ok [3].
Proof.
  intros text key. assert (J2 : absent_below key 2 120) by (intros [|[|j]] Hj; try lia; discriminate). assert (J5 : absent_below key 2 99) by (intros [|[|j]] Hj; try lia; discriminate).
  split; [|vm_compute; reflexivity]. intros w R Hw. change (w < 6) in Hw.
  inversion R as [|i j w' Hi (K1 & K2 & _) R'|i w' Hi K R']; subst; [reflexivity|exfalso; now apply (J2 j)|]. change (bm_reaches key text 5 w) in R'.
  inversion R' as [|i j w' Hi' (K1 & K2 & _) R''|i w' Hi' K' R'']; subst; [reflexivity|exfalso; now apply (J5 j)|]. apply bm_reaches_le in R''. change (8 <= w) in R''. lia.
Qed.
(** one negative character further *)
Example C81_bm_example_ub : let text := [200; 200; 120; 97; 98; 200]%N in let key := [97; 98; 99]%N in bm_reaches key text 2 5 /\ match_bm text key = UB.
Proof.
  intros text key. split; [|vm_compute; reflexivity]. apply BMJump; [change (2 < 6); lia|intros [|[|j]] Hj; try discriminate; change (S (S j) < 2) in Hj; lia|]. apply BMHere.
Qed.
(** the byte 255 in the text, under and behind windows *)
Example C81_qs_example : let text := [255; 120; 97; 98; 120; 97; 98]%N in let key := [97; 98]%N in match_qs text key = Ok [2; 5] /\ match_ms text key = Ok [2; 5] /\
  match_qs [120; 120; 255; 97; 98]%N key = UB /\ match_ms [120; 120; 255; 97; 98]%N key = UB /\ qs_reaches key [120; 120; 255; 97; 98]%N 0 0.
Proof. do 4 (split; [vm_compute; reflexivity|]). apply QSHere. Qed.
(** "ab" in "abxabzab", the key in memory followed by "z...", by "zab", and by nothing *)
Example C81_kmp_example : let text := [97; 98; 120; 97; 98; 122; 97; 98]%N in let key := [97; 98]%N in
  escapes [122%N; 97%N; 98%N] text key 5 /\ occurrences key text = [0; 3; 6] /\ match_kmp [122; 97; 98]%N text key = Ok [0; 3] /\ match_kmp [122; 97; 99]%N text key = UB /\ match_kmp [121%N] text key = Ok [0; 3; 6] /\
  escapes [] text key 2 /\ match_kmp [] text key = UB.
Proof.
  split; [split; [simpl; lia|split; reflexivity]|]. do 4 (split; [vm_compute; reflexivity|]). split; [split; [simpl; lia|split; [reflexivity|exact Logic.I]]|vm_compute; reflexivity].
Qed.
