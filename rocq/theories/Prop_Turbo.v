(** C77: what TurboBom finds. *)
From Coq Require Import List NArith ZArith Arith Bool Sorted Lia.
From Verif Require Import Base Spec4 PatternModel FoModel TurboSpec TurboProof.
Import ListNotations.
Local Open Scope nat_scope.

(** every occurrence is found, in increasing order and once, unless an earlier partial one overlaps it *)
Theorem C77_finds : forall fuel steps text key z beyond z' beyond_key o, key <> [] -> Forall (fun c => (0 < c < 256)%N) key -> bytes_below 256 text -> ~ In z text -> ~ In z' text -> length text + length text < steps ->
  fo_build fuel (rev key) = Ok o ->
  exists l, match_tbom fuel steps (z :: beyond) (z' :: beyond_key) text key = Ok l /\ StronglySorted lt l /\ (forall x, In x l -> In x (occurrences key text)) /\
    forall x, In x (occurrences key text) -> ~ overlapped key text x -> In x l.
Proof. exact turbo_finds. Qed.
Print Assumptions C77_finds.
(** hence exactly the occurrences, and no read behind the key, if no long prefix of the key has a short period *)
Theorem C77_no_short_period : forall fuel steps text key z beyond beyond_key o, key <> [] -> Forall (fun c => (0 < c < 256)%N) key -> bytes_below 256 text -> ~ In z text -> length text + length text < steps ->
  fo_build fuel (rev key) = Ok o -> no_short_period key -> match_tbom fuel steps (z :: beyond) beyond_key text key = Ok (occurrences key text).
Proof. exact turbo_complete. Qed.
Print Assumptions C77_no_short_period.
(** in particular for every key of at most five bytes *)
Theorem C77_short : forall text key z beyond beyond_key, key <> [] -> length key < 6 -> Forall (fun c => (0 < c < 256)%N) key -> bytes_below 256 text -> ~ In z text ->
  exists n, forall fuel steps, n <= fuel -> length text + length text < steps -> match_tbom fuel steps (z :: beyond) beyond_key text key = Ok (occurrences key text).
Proof. exact turbo_short. Qed.
Print Assumptions C77_short.

(** a key with a border and a text with overlapping occurrences; the occurrences are found by the bytes alone *)
Example C77_example : let text := [97; 98; 97; 98; 97; 99; 97; 98; 97; 98; 97; 99; 97; 98; 97]%N in let key := [97; 98; 97; 99; 97; 98; 97]%N in
  no_short_period key /\ match_tbom 300 40 [0%N] [] text key = Ok [2; 8] /\ occurrences key text = [2; 8].
Proof.
  split; [|split; vm_compute; reflexivity]. intros d D1 D2. exists 0. split; [lia|]. change (d + 2 <= 3) in D2. assert (d = 1) by lia. subst d. discriminate.
Qed.
(** the text of C49_missed_match_refuted followed by an occurrence which nothing overlaps *)
Example C77_example_overlap : let text := [97; 97; 97; 97; 97; 97; 97; 97; 98; 99; 97; 97; 97; 97; 97; 98]%N in let key := [97; 97; 97; 97; 97; 98]%N in
  overlapped key text 3 /\ ~ overlapped key text 10 /\ occurrences key text = [3; 10] /\ match_tbom 300 40 [0%N] [0%N] text key = Ok [10].
Proof.
  split; [|split; [|split; vm_compute; reflexivity]].
  - exists 1. split; [lia|]. split; [vm_compute; lia|]. split; [reflexivity|]. intros j Hj. change (j <= 4) in Hj. do 5 (destruct j as [|j]; [reflexivity|]). lia.
  - intros (d & (D1 & D2) & D3 & _ & H). change (d + 2 <= 3) in D3. assert (d = 1) by lia. subst d. specialize (H 0 ltac:(lia)). discriminate.
Qed.
