(** C144: the floating point window size of TurboBom. *)
From Coq Require Import List NArith ZArith Arith Bool Sorted Lia.
From Verif Require Import Base Spec4 Spec35 PatternModel FoModel TurboSpec WindowModel Window.
Import ListNotations.
Local Open Scope nat_scope.

(** the conversion of the length of the key *)
Theorem C144_float : forall x, rounds_to x (to_float x).
Proof. exact float_rounds. Qed.
Print Assumptions C144_float.
(** beyond 2^24 numbers are rounded, ties to even *)
Example C144_float_ex : map to_float [7; 2 ^ 24 - 1; 2 ^ 24 + 1; 2 ^ 24 + 3; 2 ^ 26 + 1; 2 ^ 26 - 1]%N = [7; 2 ^ 24 - 1; 2 ^ 24; 2 ^ 24 + 4; 2 ^ 26; 2 ^ 26]%N.
Proof. vm_compute. reflexivity. Qed.

(** the window is shorter than the key, empty for one character only, half the key up to 2^24 characters and close to it for longer ones *)
Theorem C144_window : forall m, let h := kKmpWindowSize m in 1 <= m ->
  h < m /\ (h = 0 -> m = 1) /\ ((N.of_nat m < 2 ^ 24)%N -> h = m / 2) /\ 2 * h <= m + N.to_nat (N.of_nat m / 2 ^ 24) /\ m <= 2 * h + 1 + N.to_nat (N.of_nat m / 2 ^ 24).
Proof. exact window_size. Qed.
Print Assumptions C144_window.
Example C144_window_ex : kKmpWindowSize 1 = 0 /\ kKmpWindowSize 7 = 3 /\ (to_float (2 ^ 24 + 3) / 2 = (2 ^ 24 + 3) / 2 + 1)%N.
Proof. vm_compute. auto. Qed.

(** with windows of any size below that of the key, every occurrence is found unless an earlier partial one overlaps it *)
Theorem C144_any_window : forall h fuel steps text key z beyond beyond_key o, key <> [] -> h < length key -> (h = 0 -> length key = 1) -> Forall (fun c => (0 < c < 256)%N) key -> bytes_below 256 text -> ~ In z text ->
  length text + length text < steps -> fo_build fuel (rev key) = Ok o ->
  (exists z' r, beyond_key = z' :: r /\ ~ In z' text) \/ (forall x, x + length key <= length text -> occurs_at key text x = true -> ~ overlapped_by h key text x) ->
  exists l, match_wbom h fuel steps (z :: beyond) beyond_key text key = Ok l /\ StronglySorted lt l /\ (forall x, In x l -> In x (occurrences key text)) /\
    forall x, In x (occurrences key text) -> ~ overlapped_by h key text x -> In x l.
Proof. exact window_exact. Qed.
Print Assumptions C144_any_window.
(** in particular with the one the code computes, for keys of every length *)
Theorem C144_finds : forall fuel steps text key z beyond beyond_key o, key <> [] -> Forall (fun c => (0 < c < 256)%N) key -> bytes_below 256 text -> ~ In z text ->
  length text + length text < steps -> fo_build fuel (rev key) = Ok o ->
  (exists z' r, beyond_key = z' :: r /\ ~ In z' text) \/ (forall x, x + length key <= length text -> occurs_at key text x = true -> ~ overlapped_by (kKmpWindowSize (length key)) key text x) ->
  exists l, match_fbom fuel steps (z :: beyond) beyond_key text key = Ok l /\ StronglySorted lt l /\ (forall x, In x l -> In x (occurrences key text)) /\
    forall x, In x (occurrences key text) -> ~ overlapped_by (kKmpWindowSize (length key)) key text x -> In x l.
Proof. exact float_exact. Qed.
Print Assumptions C144_finds.
(** and up to 2^24 characters this is the model of the other claims *)
Theorem C144_same : forall fuel steps beyond beyond_key text key, (N.of_nat (length key) <= 2 ^ 24)%N -> match_fbom fuel steps beyond beyond_key text key = match_tbom fuel steps beyond beyond_key text key.
Proof. exact float_same. Qed.
Print Assumptions C144_same.
(** the occurrence at 3 is overlapped for windows of three characters, the half of the key, and found with windows of two *)
Example C144_finds_ex : let text := [97; 97; 97; 97; 97; 97; 97; 97; 98; 99; 97; 97; 97; 97; 97; 98]%N in let key := [97; 97; 97; 97; 97; 98]%N in
  match_fbom 300 40 [0%N] [0%N] text key = Ok [10] /\ match_wbom 2 300 40 [0%N] [0%N] text key = Ok [3; 10] /\ occurrences key text = [3; 10] /\ overlapped_by 3 key text 3 /\ ~ overlapped_by 2 key text 3.
Proof.
  cbv zeta. repeat (split; [vm_compute; reflexivity|]). split; [|intros (d & D1 & D2 & _); lia]. exists 1. split; [lia|]. split; [lia|]. split; [reflexivity|]. intros j Hj. change (j <= 4) in Hj. do 5 (destruct j as [|j]; [reflexivity|]). lia.
Qed.
