(** C134: the initializable arrays take constant time per operation. [counted m] is the outcome of m together with the
    number of accesses to elements. *)
From Coq Require Import List NArith ZArith Arith Bool Lia.
From Verif Require Import Base Spec3 Spec30 CostBase InitArrayModel InitArrayProof InitCostModel InitCost.
Import ListNotations.
Local Open Scope nat_scope.

(** whatever the memory held *)
Theorem C134_in_place_get : forall next size s i,
  rmap snd (counted (ia_get_c next size s i)) = ia_get next size s i /\ forall k x, counted (ia_get_c next size s i) = Ok (k, x) -> k <= 4.
Proof. intros. exact (costs_both _ _ _ _ (ia_get_cost 0%N size next s i)). Qed.
Print Assumptions C134_in_place_get.
Theorem C134_in_place_set : forall w size s i v,
  rmap snd (counted (ia_set_c w size s i v)) = ia_set w size s i v /\ forall k s', counted (ia_set_c w size s i v) = Ok (k, s') -> k <= 26.
Proof. intros. exact (costs_both _ _ _ _ (ia_set_cost w size s i v)). Qed.
Print Assumptions C134_in_place_set.
(** construction and any number of fills are free, however long the array *)
Theorem C134_in_place_history : forall w size mem v ops,
  rmap snd (counted (ia_run_c w size mem v ops)) = ia_run w size mem v ops /\ forall k s, counted (ia_run_c w size mem v ops) = Ok (k, s) -> k <= 26 * writes ops.
Proof. intros. exact (costs_both _ _ _ _ (ia_run_cost w size mem v ops)). Qed.
Print Assumptions C134_in_place_history.
Example C134_in_place_ex : let mem := [6; 0; 4; 1; 2; 3; 0; 9]%N in let ops := [IASet 6 0; IASet 4 0; IAFill 3; IASet 0 2; IAFill 4; IAFill 5; IASet 7 1]%N in writes ops = 4 /\
  exists s, counted (ia_run_c 8 8 mem 4%N ops) = Ok (49, s) /\ counted (ia_get_c (next_unsigned 8) 8 s 6) = Ok (4, 5%N) /\ counted (ia_get_c (next_unsigned 8) 8 s 2) = Ok (2, 5%N).
Proof. cbv zeta. split; [reflexivity|]. eexists. split; [vm_compute; reflexivity|]. split; vm_compute; reflexivity. Qed.

Theorem C134_folklore_get : forall (A : Type) (s : folklore A) i,
  rmap snd (counted (fk_get_c s i)) = fk_get s i /\ forall k x, counted (fk_get_c s i) = Ok (k, x) -> k <= 3.
Proof. intros. exact (costs_both _ _ _ _ (fk_get_cost s i)). Qed.
Print Assumptions C134_folklore_get.
Theorem C134_folklore_history : forall (A : Type) (s : folklore A) ops,
  rmap snd (counted (fk_history_c s ops)) = foldM fk_step ops s /\ forall k s', counted (fk_history_c s ops) = Ok (k, s') -> k <= 5 * writes ops.
Proof. intros A s ops. exact (costs_both _ _ _ _ (fk_history_cost A s ops)). Qed.
Print Assumptions C134_folklore_history.
Example C134_folklore_ex : exists s, counted (fk_history_c (fk_make 0%N 100 9%N) [IASet 3 1; IASet 0 2; IAFill 7; IASet 3 4; IASet 3 5]%N) = Ok (16, s) /\ counted (fk_get_c s 3) = Ok (3, 5%N) /\ counted (fk_get_c s 0) = Ok (1, 7%N).
Proof. eexists. split; [vm_compute; reflexivity|]. split; vm_compute; reflexivity. Qed.
