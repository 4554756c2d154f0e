(** C124: what Bom does, whatever lies behind the array of the oracle. *)
From Coq Require Import List NArith ZArith Arith Bool Sorted Lia.
From Verif Require Import Base Spec4 Spec20 Spec24 FoModel BomExact.
Import ListNotations.
Local Open Scope nat_scope.

Theorem C124_bom : forall fuel beyond text key o, key <> [] -> Forall (fun c => (0 < c < 256)%N) key -> bytes_below 256 text -> fo_build fuel (rev key) = Ok o ->
  exists E, factor_oracle (rev key) E /\
    let m := length key in let X := continued E m beyond in
    (match_bom fuel beyond text key = UB <-> exists x k s, visited X text m 0 x /\ reads X text m x k s /\ falls_off beyond m k s) /\
    (match_bom fuel beyond text key = UB \/ exists l, match_bom fuel beyond text key = Ok l /\ StronglySorted lt l /\
       (forall x, In x l <-> visited X text m 0 x /\ exists s, reads X text m x m s) /\
       (forall x, In x (occurrences key text) -> In x l) /\
       forall x s, In x l -> reads X text m x m s -> (In x (occurrences key text) <-> s = m) /\ (~ In x (occurrences key text) <-> m < s)).
Proof. exact bom_exact. Qed.
Print Assumptions C124_bom.
(** the text is "bbaxabbaxx", the key "abb"; behind the oracle stand "bb", "bx", "xb", a zero byte, or nothing *)
Example C124_bom_example : let key := [97; 98; 98]%N in let text := [98; 98; 97; 120; 97; 98; 98; 97; 120; 120]%N in
  Forall (fun c => (0 < c < 256)%N) key /\ bytes_below 256 text /\ (exists o, fo_build 300 (rev key) = Ok o) /\
  match_bom 300 [98; 98]%N text key = Ok [0; 4; 5] /\ match_bom 300 [98; 120]%N text key = UB /\ match_bom 300 [120; 98]%N text key = UB /\ match_bom 300 [0]%N text key = Ok [4] /\ match_bom 300 [] text key = UB /\ occurrences key text = [4].
Proof. split; [repeat constructor|]. split; [repeat constructor|]. split; [eexists; vm_compute; reflexivity|]. repeat split; vm_compute; reflexivity. Qed.
(** for every key whose first character does not return, and whatever bytes follow the oracle, some text without the key is reported to begin with it *)
Theorem C124_false_match : forall fuel a k b rest o, k <> [] -> Forall (fun c => (0 < c < 256)%N) (a :: k) -> ~ In a k -> length b = length k -> bytes_below 256 b -> fo_build fuel (rev (a :: k)) = Ok o ->
  match_bom fuel (b ++ rest) (rev b ++ [a]) (a :: k) = Ok [0] /\ occurrences (a :: k) (rev b ++ [a]) = [].
Proof. exact bom_false_match. Qed.
Print Assumptions C124_false_match.
Example C124_false_match_example : (exists o, fo_build 300 (rev [97; 98; 99]%N) = Ok o) /\ match_bom 300 [0; 0; 5]%N (rev [0; 0]%N ++ [97]%N) [97; 98; 99]%N = Ok [0].
Proof. split; [eexists|]; vm_compute; reflexivity. Qed.
