(** C109: the trie with every size type, every case. *)
From Coq Require Import List NArith Arith Bool Lia.
From Verif Require Import Base Spec5 Spec16 TrieModel TrieProof TrieExact.
Import ListNotations.
Local Open Scope nat_scope.

(** [fits]: the number of items is below the largest value of the size type *)
Theorem C109_traverse : forall A st (ops : list (list N * A)), fits st (length ops) -> exists t, tr_run ops = Ok t /\ forall k,
  (was_inserted ops k -> tr_traverse st t k = Ok (last_item ops k)) /\
  (~ was_inserted ops k -> ~ zero_continues ops k -> tr_traverse st t k = Ok None) /\
  (~ was_inserted ops k -> zero_continues ops k -> tr_traverse st t k = match st with SizeT => Ok None | _ => UB end).
Proof. exact @trie_every. Qed.
Print Assumptions C109_traverse.
Example C109_traverse_example : let ops := [([97; 0; 98], 1); ([99], 2); ([97; 0; 98], 3)]%N in fits Int32 (length ops) /\ was_inserted ops [97; 0; 98]%N /\ ~ was_inserted ops [97]%N /\ zero_continues ops [97]%N /\
  exists t, tr_run ops = Ok t /\ tr_traverse Int32 t [97; 0; 98]%N = Ok (Some 3%N) /\ tr_traverse Int32 t [97]%N = UB /\ tr_traverse SizeT t [97]%N = Ok None /\ tr_traverse Int32 t [97; 0]%N = Ok None.
Proof.
  cbv zeta. split; [reflexivity|]. split; [exists 1%N; left; reflexivity|]. split; [intros (x & [H|[H|[H|[]]]]); discriminate|]. split; [exists [98]%N, 1%N; left; reflexivity|].
  eexists. split; [vm_compute; reflexivity|]. vm_compute. auto.
Qed.
Theorem C109_terminal : forall A st (ops : list (list N * A)) t, tr_run ops = Ok t -> fits st (length ops) -> forall p, key_prefix ops p ->
  exists i n, tr_walk (tr_nodes t) 0 p = Ok (Some i) /\ nth_error (tr_nodes t) i = Some n /\
    (nd_terminal st n = true <-> st = Int32 \/ exists k, was_inserted ops k /\ p = k ++ [0%N]).
Proof. exact @terminal_every. Qed.
Print Assumptions C109_terminal.
Example C109_terminal_example : exists t n m, tr_run [([97; 0; 98], 1)]%N = Ok t /\ nth_error (tr_nodes t) 2 = Some n /\ nth_error (tr_nodes t) 4 = Some m /\
  nd_terminal UInt32 n = false /\ nd_terminal UInt32 m = true /\ nd_terminal Int32 n = true.
Proof. do 3 eexists. split; [vm_compute; reflexivity|]. split; [reflexivity|]. split; [reflexivity|]. vm_compute. auto. Qed.
