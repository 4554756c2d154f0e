(** C148: matchers whose key changes or vanishes after construction. *)
From Coq Require Import List NArith ZArith Arith Bool Sorted.
From Verif Require Import Base Spec4 MatchSpec PatternModel FoModel KeyViewModel KeyView.
Import ListNotations.
Local Open Scope nat_scope.

(** [mem] is what lies where the key lay: anything, or nothing *)
Theorem C148_bom_keeps : forall fuel steps z beyond key mem text x, key <> [] -> Forall (fun c => (0 < c < 256)%N) key -> bytes_below 256 text -> ~ In z text -> make_bom fuel key = Ok x ->
  find_all steps (z :: beyond) mem x text = Ok (occurrences key text).
Proof. exact bom_kept. Qed.
Print Assumptions C148_bom_keeps.
Theorem C148_sunday_keep : forall steps beyond key mem text, bytes_below 128 key -> bytes_below 255 text -> (N.of_nat (length text) < 2 ^ 64)%N -> length key <= length text ->
  exists x y, make_qs key = Ok x /\ make_ms key = Ok y /\ find_all steps beyond mem x text = Ok (occurrences key text) /\ find_all steps beyond mem y text = Ok (occurrences key text).
Proof. exact sunday_kept. Qed.
Print Assumptions C148_sunday_keep.
Theorem C148_turbo_reports : forall fuel steps z beyond key mem text x l, Forall (fun c => (0 < c < 256)%N) key -> bytes_below 256 text -> ~ In z text -> make_turbo fuel key = Ok x ->
  find_all steps (z :: beyond) mem x text = Ok l -> forall i, In i l -> In i (occurrences key text).
Proof. exact turbo_kept. Qed.
Print Assumptions C148_turbo_reports.
Theorem C148_simple_follows : forall steps beyond key key' rest text x, length key' = length key -> make_simple key = Ok x -> find_all steps beyond (key' ++ rest) x text = Ok (occurrences key' text).
Proof. exact simple_follows. Qed.
Print Assumptions C148_simple_follows.
(** Bm inspects the windows the old key leads to and compares them with the new one *)
Theorem C148_bm_mixes : forall steps beyond key key' rest text, key <> [] -> bytes_below 128 (removelast key) -> bytes_below 128 text -> length key' = length key ->
  exists x l, make_bm key = Ok x /\ find_all steps beyond (key' ++ rest) x text = Ok l /\ StronglySorted lt l /\
    forall i, In i l <-> In i (occurrences key' text) /\ bm_reaches key text (length key - 1) (i + length key - 1).
Proof. exact bm_follows. Qed.
Print Assumptions C148_bm_mixes.
Theorem C148_simple_gone : forall steps beyond key text x, make_simple key = Ok x ->
  (find_all steps beyond [] x text = UB <-> 1 <= length key <= length text) /\ (find_all steps beyond [] x text = UB \/ find_all steps beyond [] x text = Ok (occurrences key text)).
Proof. exact simple_gone. Qed.
Print Assumptions C148_simple_gone.
Theorem C148_bm_gone : forall steps beyond key text x, make_bm key = Ok x ->
  (find_all steps beyond [] x text = UB <-> length key <= length text) /\ (find_all steps beyond [] x text = UB \/ find_all steps beyond [] x text = Ok []).
Proof. exact bm_gone. Qed.
Print Assumptions C148_bm_gone.
Theorem C148_kmp_gone : forall steps beyond key c text x, make_kmp key = Ok x -> find_all steps beyond [] x (c :: text) = UB.
Proof. exact kmp_gone. Qed.
Print Assumptions C148_kmp_gone.
(** Kmp reports a place where neither key stands: built for "aaa", which became "aba" *)
Theorem C148_kmp_mixes : exists key key' text x l i, length key' = length key /\ make_kmp key = Ok x /\ find_all 0 [] (key' ++ [0%N]) x text = Ok l /\ In i l /\ ~ In i (occurrences key text) /\ ~ In i (occurrences key' text).
Proof.
  exists [97; 97; 97]%N, [97; 98; 97]%N, [97; 98; 97; 97; 98]%N. eexists _, [0; 1], 1. split; [reflexivity|]. split; [vm_compute; reflexivity|]. split; [vm_compute; reflexivity|]. vm_compute. intuition congruence.
Qed.
Print Assumptions C148_kmp_mixes.
Example C148_example : let key := [97; 98]%N in let key' := [98; 97]%N in let text := [97; 98; 97; 98; 97]%N in
  (exists x, make_bom 300 key = Ok x /\ find_all 9 [0%N] [] x text = Ok [0; 2]) /\ (exists x, make_turbo 300 key = Ok x /\ find_all 9 [0%N] (key' ++ [0%N]) x text = Ok [0; 2]) /\
  (exists x, make_simple key = Ok x /\ find_all 9 [] key' x text = Ok [1; 3]) /\ (exists x, make_bm key = Ok x /\ find_all 9 [] key' x text = Ok [] /\ find_all 9 [] key' x (98%N :: text) = Ok [0]).
Proof. cbv zeta. repeat split; eexists; repeat (split; [vm_compute; reflexivity|]); vm_compute; reflexivity. Qed.
