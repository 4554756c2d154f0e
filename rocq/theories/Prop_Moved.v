(** C136: containers that were moved from. *)
From Coq Require Import List NArith ZArith Arith Bool Lia.
From Verif Require Import Base Spec BitUtilModel BitVectorModel SuccinctModel FitVectorModel WaveletModel DacModel CHTModel SamcModel TrieModel MovedModel Moved.
Import ListNotations.
Local Open Scope nat_scope.

(** a BitVector still reports its old size, and no element of it can be read or written; at does not notice *)
Theorem C136_bitvector : forall v, bv_size (bv_moved v) = bv_size v /\
  (forall i, bv_get (bv_moved v) i = UB /\ forall b, bv_set (bv_moved v) i b = UB) /\ forall i, bv_at (bv_moved v) i = if i <? bv_size v then UB else Throw.
Proof. intros v. split; [reflexivity|]. split; [|apply bv_moved_at]. intros i. split; [apply bv_moved_get|]. intros b. apply bv_moved_set. Qed.
Print Assumptions C136_bitvector.
(** assign makes it usable; so does resize to any size but its own, as if it had been all false *)
Theorem C136_bitvector_assign : forall v n b ops l, bits_run [] (BVAssign n b :: ops) = Some l ->
  exists v', bv_run (bv_moved v) (BVAssign n b :: ops) = Ok v' /\ bv_size v' = length l /\ bv_to_list v' = Ok l.
Proof. exact bv_moved_assigned. Qed.
Print Assumptions C136_bitvector_assign.
Theorem C136_bitvector_resize : forall v n b ops l, n <> bv_size v -> bits_run (repeat false (bv_size v)) (BVResize n b :: ops) = Some l ->
  exists v', bv_run (bv_moved v) (BVResize n b :: ops) = Ok v' /\ bv_size v' = length l /\ bv_to_list v' = Ok l.
Proof. exact bv_moved_run. Qed.
Print Assumptions C136_bitvector_resize.
Example C136_bitvector_ex : exists v, bv_filled 3 true = Ok v /\ (do v' <- bv_push_back (bv_moved v) true; bv_to_list v') = Ok [false; false; false; true] /\
  (do v' <- bv_resize (bv_moved v) 3 false; bv_at v' 0) = UB.
Proof. eexists. split; [vm_compute; reflexivity|]. split; vm_compute; reflexivity. Qed.

Theorem C136_fitvector : forall v, fv_size (fv_moved v) = fv_size v /\ (forall i, fv_get (fv_moved v) i = UB) /\
  (forall i, fv_at (fv_moved v) i = if i <? fv_size v then UB else Throw) /\ forall n, fv_resize (fv_moved v) n = fv_sized (fv_width v) n.
Proof. intros v. split; [reflexivity|]. split; [apply fv_moved_get|]. split; [apply fv_moved_at|]. apply fv_moved_resize. Qed.
Print Assumptions C136_fitvector.
Theorem C136_fitvector_push : forall v x, 1 <= fv_width v <= 63 -> (x < 2 ^ N.of_nat (fv_width v))%N ->
  exists v', fv_push_back (fv_moved v) x = Ok v' /\ fv_size v' = fv_size v + 1 /\ forall i, i < fv_size v + 1 -> fv_get v' i = Ok (if i =? fv_size v then x else 0%N).
Proof. exact fv_moved_push. Qed.
Print Assumptions C136_fitvector_push.
Example C136_fitvector_ex : exists v, fv_of_list [5; 6; 7]%N = Ok v /\ fv_at (fv_moved v) 1 = UB /\
  (do v' <- fv_push_back (fv_moved v) 3; mapM (fv_get v') [0; 1; 2; 3]) = Ok [0; 0; 0; 3]%N.
Proof. eexists. split; [vm_compute; reflexivity|]. split; vm_compute; reflexivity. Qed.

(** nothing can be asked of the others; a SuccinctBitVector or Samc made by the default constructor is no better *)
Theorem C136_succinct : forall s selw i, sb_size (sb_moved s) = sb_size s /\ sb_get (sb_moved s) i = UB /\ sb_rank (sb_moved s) i = UB /\ sb_select selw (sb_moved s) i = UB /\
  sb_rank sb_default i = UB /\ sb_select selw sb_default i = UB.
Proof. intros s selw i. split; [reflexivity|]. split; [apply bv_moved_get|]. repeat split; try apply sb_rank_nil; apply sb_select_nil. Qed.
Print Assumptions C136_succinct.
Theorem C136_sequences : forall t d i, wt_get (wt_moved t) i = UB /\ wt_size (wt_moved t) = UB /\ dac_get (dac_moved d) i = UB /\ dac_size (dac_moved d) = UB.
Proof. intros t d i. split; [apply wt_moved_get|]. split; [reflexivity|]. split; [apply dac_moved_get|apply dac_moved_size]. Qed.
Print Assumptions C136_sequences.
(** the other queries of a WaveletTree: the height stays, so the missing nodes are visited *)
Theorem C136_wavelet_ranks : forall l t c i, wt_make l = Ok t -> wt_rank (wt_moved t) i = UB /\ wt_rank_c (wt_moved t) c i = UB /\ wt_access_and_rank (wt_moved t) i = UB.
Proof. exact wt_moved_ranks. Qed.
Print Assumptions C136_wavelet_ranks.
Example C136_wavelet_ranks_ex : exists t, wt_make [3; 1; 2; 1]%N = Ok t /\ wt_rank_c t 1 4 = Ok 2 /\ wt_rank_c (wt_moved t) 1 4 = UB.
Proof. eexists. split; [vm_compute; reflexivity|]. split; vm_compute; reflexivity. Qed.
Theorem C136_hash_table : forall t k, (forall x, cht_get (cht_moved t) k <> Ok x) /\
  forall VB L v t', (ch_used t = 0 -> ch_size t = 0) -> cht_set VB L (cht_moved t) k v <> Ok t'.
Proof. intros t k. split; [intros x; apply cht_moved_get|]. intros VB L v t'. apply cht_moved_set. Qed.
Print Assumptions C136_hash_table.
Theorem C136_strings : forall s t A (r : trie A) key, sm_accept (samc_moved s) key = UB /\ sd_lookup (dict_moved t) key = UB /\ (forall selw i, sd_access selw (dict_moved t) i = UB) /\
  (forall st, tr_traverse st (trie_moved r) key = UB) /\ forall x, tr_insert (trie_moved r) key x = UB.
Proof.
  intros s t A r key. split; [apply samc_moved_accept|]. split; [apply dict_moved_lookup|]. split; [intros; apply dict_moved_access|].
  split; [intros; apply trie_moved_traverse|intros; apply trie_moved_insert].
Qed.
Print Assumptions C136_strings.
Example C136_others_ex : (do s <- bv_of_bits [true; false; true]; do s <- sb_build true s; sb_rank s 2) = Ok 1%N /\
  (do s <- bv_of_bits [true; false; true]; do s <- sb_build true s; sb_rank (sb_moved s) 2) = UB /\ (do s <- sb_build true bv_default; sb_rank s 0) = Ok 0%N /\ sb_rank sb_default 0 = UB.
Proof. repeat split; vm_compute; reflexivity. Qed.
