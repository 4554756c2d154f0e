(** C127: the trie with a size type of any width. *)
From Coq Require Import List NArith ZArith Arith Bool Lia.
From Verif Require Import Base Spec5 Spec16 Spec27 TrieModel TrieWidthModel TrieWidth TrieWidth2.
Import ListNotations.
Local Open Scope nat_scope.

Theorem C127_enough : forall A ty (ops : list (list N * A)) n, In (it_bits ty) [8; 16; 32; 64]%N -> prefix_count ops n -> (N.of_nat n <= values_from_0 (it_signed ty) (it_bits ty))%N ->
  exists t, wr_run ty ops = Ok t /\ forall k,
  (was_inserted ops k -> wr_traverse t k = Ok (last_item ops k)) /\
  (~ was_inserted ops k -> ~ zero_continues ops k -> wr_traverse t k = Ok None) /\
  (~ was_inserted ops k -> zero_continues ops k -> wr_traverse t k = if negb (it_signed ty) && (it_bits ty =? 64)%N then Ok None else UB).
Proof. intros A ty ops n S. exact (width_enough ty S ops n). Qed.
Print Assumptions C127_enough.
Example C127_enough_example : let ty := {| it_signed := false; it_bits := 8 |} in let ops := [([97; 0; 98], 1); (repeat 98%N 250, 2); ([97; 0; 98], 3)]%N in
  prefix_count ops 256 /\ (N.of_nat 256 <= values_from_0 (it_signed ty) (it_bits ty))%N /\
  exists t, wr_run ty ops = Ok t /\ wr_traverse t [97; 0; 98]%N = Ok (Some 3%N) /\ wr_traverse t (repeat 98%N 250) = Ok (Some 2%N) /\ wr_traverse t [98]%N = Ok None /\ wr_traverse t [97]%N = UB.
Proof.
  cbv zeta. split.
  - set (ops := [([97; 0; 98], 1); (repeat 98%N 250, 2); ([97; 0; 98], 3)]%N). assert (H : exists t, tr_run ops = Ok t /\ length (tr_nodes t) = 256) by (eexists; split; vm_compute; reflexivity).
    destruct H as (t & E & <-). apply run_count. exact E.
  - split; [vm_compute; discriminate|]. eexists. split; [vm_compute; reflexivity|]. vm_compute. auto.
Qed.
Theorem C127_terminal : forall A ty (ops : list (list N * A)) n t, In (it_bits ty) [8; 16; 32; 64]%N -> prefix_count ops n -> (N.of_nat n <= values_from_0 (it_signed ty) (it_bits ty))%N ->
  wr_run ty ops = Ok t -> forall p, key_prefix ops p ->
  exists i m, wr_walk (wr_nodes t) 0 p = Ok (Some i) /\ nth_error (wr_nodes t) (N.to_nat i) = Some m /\
    (wn_terminal ty m = true <-> it_signed ty = true \/ (it_bits ty < 32)%N \/ exists k, was_inserted ops k /\ p = k ++ [0%N]).
Proof. intros A ty ops n t S. exact (width_terminal ty S ops n t). Qed.
Print Assumptions C127_terminal.
Example C127_terminal_example : let ops := [([97], 1)]%N in prefix_count ops 3 /\ key_prefix ops [97]%N /\ forall bits, In bits [16; 32]%N -> let ty := {| it_signed := false; it_bits := bits |} in
  exists t m, wr_run ty ops = Ok t /\ nth_error (wr_nodes t) 1 = Some m /\ wn_terminal ty m = (bits =? 16)%N.
Proof.
  cbv zeta. split. { exact (run_count _ [([97], 1)]%N _ eq_refl). } split. { right. exists [97]%N, 1%N, [0]%N. split; [left|]; reflexivity. }
  intros bits [<-|[<-|[]]]; do 2 eexists; (split; [vm_compute; reflexivity|split; vm_compute; reflexivity]).
Qed.
Theorem C127_first_lost : forall A ty (ops : list (list N * A)) k x n n', In (it_bits ty) [8; 16; 32]%N ->
  prefix_count ops n -> (N.of_nat n <= values_from_0 (it_signed ty) (it_bits ty))%N ->
  prefix_count (ops ++ [(k, x)]) n' -> (values_from_0 (it_signed ty) (it_bits ty) < N.of_nat n')%N -> (N.of_nat (length k) < 2 ^ 62)%N ->
  exists t, wr_run ty (ops ++ [(k, x)]) = Ok t /\ wr_traverse t k = if it_signed ty then UB else Ok None.
Proof. exact first_lost. Qed.
Print Assumptions C127_first_lost.
Example C127_first_lost_example : let ops := [(repeat 98%N 125, 1)]%N in prefix_count ops 127 /\ prefix_count (ops ++ [([97], 2)]%N) 129 /\ values_from_0 true 8 = 128%N.
Proof.
  cbv zeta. set (ops := [(repeat 98%N 125, 1)]%N). assert (H : exists t, tr_run ops = Ok t /\ length (tr_nodes t) = 127) by (eexists; split; vm_compute; reflexivity).
  assert (H' : exists t, tr_run (ops ++ [([97], 2)]%N) = Ok t /\ length (tr_nodes t) = 129) by (eexists; split; vm_compute; reflexivity).
  destruct H as (t & E & L), H' as (t' & E' & L'). apply run_count in E. apply run_count in E'. rewrite L in E. rewrite L' in E'. auto.
Qed.
(** afterwards node numbers are used twice: the item of another key is found *)
Theorem C127_wrong_item : exists ops k y t, @wr_run N {| it_signed := false; it_bits := 8 |} ops = Ok t /\ last_item ops k <> Some y /\ wr_traverse t k = Ok (Some y).
Proof.
  exists [([97], 1); (repeat 98%N 251, 2); ([99], 3); ([100], 4)]%N, [100]%N, 1%N. eexists. split; [vm_compute; reflexivity|]. split; [vm_compute; discriminate|vm_compute; reflexivity].
Qed.
Print Assumptions C127_wrong_item.
