(** Properties C23, C24, C25 and C61 (DacVector.hpp). *)
From Coq Require Import List NArith ZArith Lia Bool Arith.
From Verif Require Import Base Spec CalcModel FitVectorModel DacModel DacProof.
Import ListNotations.
Local Open Scope nat_scope.

(** ** C23 *)
(** With widths chosen by the library, construction never has defined behaviour: it calls
    split_positions_optimized_for_dac, which runs one iteration too many (C12). *)
Theorem C23_library_widths_undefined : forall l, l <> [] -> Forall (fun v => (v < 2 ^ 63)%N) l -> (N.of_nat (length l) < 2 ^ 57)%N ->
  dac_of_list l [] = UB.
Proof. exact dac_of_list_UB. Qed.
Print Assumptions C23_library_widths_undefined.
Theorem C23_refuted : exists l, l <> [] /\ Forall (fun v => (v < 2 ^ 64)%N) l /\ dac_of_list l [] = UB.
Proof. exists [3; 300; 70000]%N. split; [discriminate|]. split; [repeat constructor|vm_compute; reflexivity]. Qed.
Print Assumptions C23_refuted.

(** Missing: the stray iteration, values of 2^63 and more. *)
Theorem C23_lossless_partial : forall l, l <> [] -> Forall (fun v => (v < 2 ^ 63)%N) l -> (N.of_nat (length l) < 2 ^ 57)%N ->
  exists d, dac_of_list_tolerant l [] = Ok d /\ dac_size d = Ok (length l) /\ length (dac_units d) <= 8 /\
   forall i, dac_at d i = match nth_error l i with Some x => Ok x | None => Throw end.
Proof. exact dac_tolerant_reads. Qed.
Print Assumptions C23_lossless_partial.
Example C23_lossless_ex : let l := [3; 300; 0; 70000; 1; 9223372036854775807]%N in
  (do d <- dac_of_list_tolerant l []; mapM (dac_get d) (seq 0 6)) = Ok l /\
  (do d <- dac_of_list_tolerant l []; Ok (length (dac_units d))) = Ok 2.
Proof. split; vm_compute; reflexivity. Qed.

(** ** C24 *)
(** Missing: widths of which one could be dropped (the constructor then reads past its table), widths 0 and 64,
    values of 2^63 and more. *)
Theorem C24_explicit_widths_partial : forall units l, l <> [] -> Forall (fun v => (v < 2 ^ 63)%N) l ->
  units <> [] -> Forall (fun u => 1 <= u <= 63) units -> max_bits l <= list_sum_nat units ->
  list_sum_nat (removelast units) < max_bits l ->
  exists d, dac_of_list l units = Ok d /\ dac_size d = Ok (length l) /\
   (forall i, dac_at d i = match nth_error l i with Some x => Ok x | None => Throw end) /\
   (forall i, i < length l -> dac_get d i = Ok (nth i l 0%N)).
Proof.
  intros units l A B C D E F. destruct (dac_explicit_reads units l A B C D E F) as (d & X & Y & Z & W & _). exists d. auto.
Qed.
Print Assumptions C24_explicit_widths_partial.
Example C24_explicit_widths_ex : let l := [3; 300; 0; 70000; 1; 65536]%N in
  list_sum_nat (removelast [4; 5; 8]) < max_bits l /\ max_bits l <= list_sum_nat [4; 5; 8] /\
  (do d <- dac_of_list l [4; 5; 8]; mapM (dac_get d) (seq 0 6)) = Ok l.
Proof. split; [vm_compute; lia|]. split; [vm_compute; lia|]. vm_compute; reflexivity. Qed.

(** Wider than needed: out-of-bounds read of the frequency table. *)
Theorem C24_refuted : exists l units, l <> [] /\ Forall (fun u => 1 <= u <= 63) units /\ max_bits l <= list_sum_nat units /\
  dac_of_list l units = UB.
Proof.
  exists [3; 30]%N, [8; 8]. split; [discriminate|]. split; [repeat constructor; lia|]. split; [vm_compute; lia|vm_compute; reflexivity].
Qed.
Print Assumptions C24_refuted.

(** ** C25 *)
(** The constructor leaves num_layers_ uninitialised and no layer behind: size() and every read are undefined. *)
Theorem C25_empty_refuted : exists d, dac_of_list [] [] = Ok d /\ dac_num d = None /\ dac_size d = UB /\
  (forall i, dac_at d i = UB) /\ forall i, dac_depth d i = UB.
Proof. eexists. split; [reflexivity|]. repeat split. Qed.
Print Assumptions C25_empty_refuted.

(** ** C61 *)
(** Missing: as for C24. *)
Theorem C61_depth_partial : forall units l i, l <> [] -> Forall (fun v => (v < 2 ^ 63)%N) l ->
  units <> [] -> Forall (fun u => 1 <= u <= 63) units -> max_bits l <= list_sum_nat units ->
  list_sum_nat (removelast units) < max_bits l -> i < length l ->
  exists d k, dac_of_list l units = Ok d /\ dac_depth d i = Ok k /\
    (nth i l 0 < 2 ^ N.of_nat (list_sum_nat (firstn (S k) units)))%N /\
    forall j, j < k -> (2 ^ N.of_nat (list_sum_nat (firstn (S j) units)) <= nth i l 0)%N.
Proof.
  intros units l i A B C D E F Hi. destruct (dac_explicit_reads units l A B C D E F) as (d & X & _ & _ & _ & W).
  destruct (W i Hi) as (k & K). exists d, k. tauto.
Qed.
Print Assumptions C61_depth_partial.
Example C61_depth_ex : let l := [3; 300; 0; 70000; 1; 65536; 16]%N in
  (do d <- dac_of_list l [4; 5; 8]; mapM (dac_depth d) (seq 0 7)) = Ok [0; 1; 0; 2; 0; 2; 1].
Proof. vm_compute; reflexivity. Qed.
