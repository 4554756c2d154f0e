(** C155: the debug output of _InitializableArray for integers *)
From Coq Require Import List NArith ZArith Arith Bool Lia.
From Verif Require Import Base Spec3 Spec18 InitArrayModel InitShowSpec InitShowModel InitShow.
Import ListNotations.
Local Open Scope nat_scope.

(** the elements, then for an odd size one more that shows the last fill; the number of pairs written since; undefined from 2^31 cells on *)
Theorem C155_unsigned : forall w size mem v ops, in_place_case w size -> length mem = kActualSize size -> Forall (ia_op_in size) ops ->
  exists s, ia_run w size mem v ops = Ok s /\ length (ia_a s) = kActualSize size /\
    ia_print (next_unsigned w) size s = if (N.of_nat (kActualSize size) <? 2 ^ 31)%N
      then Ok (map (ia_last v (rev ops)) (seq 0 size) ++ repeat (last_fill v ops) (size mod 2), pairs_written (rev ops) (kActualSize size / 2), ia_a s) else UB.
Proof. exact shown_unsigned. Qed.
Print Assumptions C155_unsigned.
Theorem C155_signed : forall w size mem v ops, (1 < w)%N -> in_place_case (w - 1) size -> length mem = kActualSize size -> Forall (ia_op_in size) ops ->
  exists s, ia_run w size mem v ops = Ok s /\ length (ia_a s) = kActualSize size /\
    ia_print (next_signed w) size s = if (N.of_nat (kActualSize size) <? 2 ^ 31)%N
      then Ok (map (ia_last v (rev ops)) (seq 0 size) ++ repeat (last_fill v ops) (size mod 2), pairs_written (rev ops) (kActualSize size / 2), ia_a s) else UB.
Proof. exact shown_signed. Qed.
Print Assumptions C155_signed.
(** seven elements in eight cells of memory that looks like links *)
Example C155_ex : let ops := [IASet 1 8; IAFill 5; IASet 6 0; IASet 4 0; IASet 5 4]%N in
  in_place_case 8 7 /\ in_place_case (8 - 1) 7 /\ Forall (ia_op_in 7) ops /\ map (ia_last 4%N (rev ops)) (seq 0 7) = [5; 5; 5; 5; 0; 4; 0]%N /\ last_fill 4%N ops = 5%N /\ pairs_written (rev ops) 4 = 2 /\
  (do s <- ia_run 8 7 [6; 0; 4; 1; 2; 3; 0; 9]%N 4%N ops; do x <- ia_print (next_unsigned 8) 7 s; Ok (fst x)) = Ok ([5; 5; 5; 5; 0; 4; 0; 5]%N, 2).
Proof. split; [split; vm_compute; congruence|]. split; [split; vm_compute; congruence|]. split; [repeat (constructor; [cbn; lia || exact I|]); constructor|]. vm_compute. auto. Qed.
