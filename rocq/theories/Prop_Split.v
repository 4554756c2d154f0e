(** C78: the level split of DacVector is optimal. *)
From Coq Require Import List NArith Lia Bool Arith.
From Verif Require Import Base Spec CalcModel SplitSpec SplitProof.
Import ListNotations.
Local Open Scope nat_scope.

(** with the stray iteration of calc.hpp:123 left out *)
Theorem C78_best : forall l mx, l <> [] -> Forall (fun v => (v < 2 ^ 63)%N) l -> (N.of_nat (length l) < 2 ^ 57)%N -> 2 <= mx ->
  exists best r, best_split l best /\ split_positions_tolerant l mx = Ok (Some r) /\ (length best <= mx -> r = best) /\ (mx < length best -> merged l mx best r).
Proof. exact split_best. Qed.
Print Assumptions C78_best.
(** one level of 17 bits takes 8551 bits, the split 3614; with two levels the cut at 10, where 200 values end, is dropped and the one at 1, where 300 end, is kept *)
Example C78_example : let l := (repeat 1 300 ++ repeat 1000 200 ++ repeat 100000 3)%N in
  l <> [] /\ (N.of_nat (length l) < 2 ^ 57)%N /\ split_positions_tolerant l 8 = Ok (Some [1; 9; 7]) /\ split_positions_tolerant l 2 = Ok (Some [1; 16]) /\
  split_cost l 0 [17] = 8551%N /\ split_cost l 0 [1; 9; 7] = 3614%N /\ split_cost l 0 [1; 16] = 4570%N /\ cuts 0 [1; 9; 7] = [1; 10] /\ exactly l 1 = 300 /\ exactly l 10 = 200.
Proof. split; [discriminate|]. split; [reflexivity|]. do 7 (split; [vm_compute; reflexivity|]). vm_compute; reflexivity. Qed.
