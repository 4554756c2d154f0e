(** C141: how many characters TurboBom inspects. *)
From Coq Require Import List NArith ZArith Arith Bool Lia.
From Verif Require Import Base Spec4 PatternModel FoModel TurboSpec TurboCostModel TurboCost.
Import ListNotations.
Local Open Scope nat_scope.

(** apart from one call of image per character of each reported match the search is linear *)
Theorem C141_turbo : forall fuel steps text key z beyond beyond_key o, key <> [] -> Forall (fun c => (0 < c < 256)%N) key -> bytes_below 256 text -> ~ In z text -> length text + length text < steps -> fo_build fuel (rev key) = Ok o ->
  (exists z' r, beyond_key = z' :: r /\ ~ In z' text) \/ no_short_period key ->
  exists w k q l, match_tbom fuel steps (z :: beyond) beyond_key text key = Ok l /\ match_tbom_count fuel steps (z :: beyond) beyond_key text key = Ok (w, k, q, l) /\
    length l <= w <= 2 * length text /\ (w - length l) * (length key / 2) <= length text + length key / 2 /\
    length key * length l + (w - length l) <= k <= length key * length l + 3 * length text + 2 * length key /\ q <= 2 * length text.
Proof. exact turbo_cost. Qed.
Print Assumptions C141_turbo.
Example C141_turbo_example : let text := [97; 98; 97; 98; 97; 99; 97; 98; 97; 98; 97; 99; 97; 98; 97]%N in let key := [97; 98; 97; 99; 97; 98; 97]%N in
  no_short_period key /\ match_tbom_count 300 40 [0%N] [] text key = Ok (4, 26, 7, [2; 8]).
Proof.
  split; [|vm_compute; reflexivity]. intros d D1 D2. exists 0. split; [lia|]. change (d + 2 <= 3) in D2. assert (d = 1) by lia. subst d. discriminate.
Qed.
(** on runs of one letter it is quadratic: every window is a match and all of it is read *)
Theorem C141_runs : forall a n m z beyond z' beyond_key, (0 < a < 256)%N -> z <> a -> z' <> a -> 1 <= m <= n -> exists f, forall fuel steps, f <= fuel -> 2 * n < steps -> exists w k q,
  match_tbom_count fuel steps (z :: beyond) (z' :: beyond_key) (repeat a n) (repeat a m) = Ok (w, k, q, seq 0 (n + 1 - m)) /\ m * (n + 1 - m) <= k.
Proof. exact turbo_runs. Qed.
Print Assumptions C141_runs.
Example C141_runs_example : match_tbom_count 300 40 [0%N] [0%N] (repeat 97%N 9) (repeat 97%N 4) = Ok (6, 24, 0, [0; 1; 2; 3; 4; 5]).
Proof. vm_compute. reflexivity. Qed.
