(** Properties C16, C17 and C18 (SuccinctBitVector.hpp). *)
From Coq Require Import List NArith ZArith Lia Bool Arith.
From Verif Require Import Base Spec BitUtilModel BitUtilProof BitVectorModel SuccinctModel SuccinctProof SuccinctProof2 SuccinctProof3.
Import ListNotations.
Local Open Scope nat_scope.

(** ** C16 *)
(** Missing from the full statement: rank(size()) when the size is a positive multiple of 64. *)
Theorem C16_rank_partial : forall us v l, bv_reach v l -> exists s, sb_build us v = Ok s /\ sb_size s = length l /\
  (forall i b, nth_error l i = Some b -> sb_get s i = Ok b) /\
  forall i, i <= length l -> i < length l \/ length l mod 64 <> 0 \/ l = [] ->
    sb_rank s i = Ok (N.of_nat (count_true (firstn i l))) /\
    ((N.of_nat (length l) < 2 ^ 64)%N -> sb_rank0 s i = Ok (N.of_nat (length (filter negb (firstn i l))))).
Proof. exact rank_history. Qed.
Print Assumptions C16_rank_partial.
(** a vector with stale ones past its end, crossing a block boundary *)
Example C16_rank_ex : exists v, bv_reach v (repeat true 600) /\
  (do s <- sb_build true v; sb_rank s 577) = Ok 577%N.
Proof.
  eexists. split.
  - exists (bv_filled 700 true), (repeat true 700), [BVResize 600 false]. split; [apply StartFilled|].
    split; vm_compute; reflexivity.
  - vm_compute. reflexivity.
Qed.

(** The missing case reads one word past the array, whatever the contents. *)
Theorem C16_rank_full_length_refuted : exists v l, bv_reach v l /\ exists s, sb_build true v = Ok s /\ sb_rank s (length l) = UB.
Proof.
  exists (BV 64 [all_ones]), (repeat true 64). split.
  - exists (bv_filled 64 true), (repeat true 64), []. split; [apply StartFilled|]. split; vm_compute; reflexivity.
  - eexists. split; vm_compute; reflexivity.
Qed.
Print Assumptions C16_rank_full_length_refuted.

Theorem C16_rank_full_length_out_of_bounds : forall us v l, bv_reach v l -> l <> [] -> length l mod 64 = 0 ->
  exists s, sb_build us v = Ok s /\ sb_rank s (length l) = UB.
Proof. exact rank_full_history. Qed.
Print Assumptions C16_rank_full_length_out_of_bounds.
Example C16_full_ex : exists v, bv_reach v (repeat false 128).
Proof.
  eexists. exists (Ok (bv_sized 128)), (repeat false 128), []. split; [apply StartSized|]. split; reflexivity.
Qed.

(** If that word were readable, every prefix length would be answered correctly, whatever the word holds. *)
Theorem C16_rank_with_readable_padding_partial : forall us v l x, bv_reach v l -> (x < 2 ^ 64)%N -> exists s, sb_build us v = Ok s /\
  forall i, i <= length l ->
    sb_rank (SBV (BV (bv_size v) (bv_words v ++ [x])) (sb_block s) (sb_tips s)) i = Ok (N.of_nat (count_true (firstn i l))).
Proof. exact rank_padding. Qed.
Print Assumptions C16_rank_with_readable_padding_partial.
Example C16_padding_ex : (do s <- sb_build false (BV 64 [all_ones]);
   sb_rank (SBV (BV 64 ([all_ones] ++ [12345%N])) (sb_block s) (sb_tips s)) 64) = Ok 64%N.
Proof. vm_compute. reflexivity. Qed.

(** ** C17 *)
(** Word-level select through pdep (BMI2 targets). Missing: indices in a later group of 512 ones than the
    last group that starts before the last block, and vectors of 2^41 bits or more. *)
Theorem C17_select_bmi2_partial : forall v l, bv_reach v l -> (N.of_nat (length l) < 2 ^ 41)%N ->
  exists s, sb_build true v = Ok s /\
  forall k, k < count_true l -> k / 512 <= ones_before_last_block l / 512 ->
    exists p, sb_select (sel_bmi2 ctz64) s k = Ok (N.of_nat p) /\ is_kth_one l k p.
Proof.
  intros v l Hr Hs. destruct (select_history v l Hr Hs) as (s & E & A & _). exists s. split; auto.
  intros k. apply A. intros x Hx. apply selw_bmi2. eapply bv_reach_words; eauto.
Qed.
Print Assumptions C17_select_bmi2_partial.
Example C17_select_bmi2_ex : exists v, bv_reach v (repeat false 500 ++ repeat true 700) /\
  (do s <- sb_build true v; sb_select (sel_bmi2 ctz64) s 600) = Ok 1100%N /\
  600 / 512 <= ones_before_last_block (repeat false 500 ++ repeat true 700) / 512.
Proof.
  eexists. split.
  - exists (bv_filled 1200 true), (repeat true 1200), [BVFill 0 500 false]. split; [apply StartFilled|].
    split; vm_compute; reflexivity.
  - split; [vm_compute; reflexivity|]. vm_compute. lia.
Qed.

(** Portable word-level select: additionally restricted to vectors none of whose words hits the
    defect of the portable sel (C04). *)
Theorem C17_select_portable_partial : forall v l, bv_reach v l -> (N.of_nat (length l) < 2 ^ 41)%N ->
  (forall x, In x (bv_words v) -> N.land x 0x0F0F0F0F <> 0x0F0F0F0F%N /\ N.land x 0xF0F0F0F0 <> 0xF0F0F0F0%N) ->
  exists s, sb_build true v = Ok s /\
  forall k, k < count_true l -> k / 512 <= ones_before_last_block l / 512 ->
    exists p, sb_select sel s k = Ok (N.of_nat p) /\ is_kth_one l k p.
Proof.
  intros v l Hr Hs Hw. destruct (select_history v l Hr Hs) as (s & E & A & _). exists s. split; auto.
  intros k. apply A. intros x Hx. destruct (Hw x Hx). apply selw_portable; auto. eapply bv_reach_words; eauto.
Qed.
Print Assumptions C17_select_portable_partial.
Example C17_select_portable_ex : exists v, bv_reach v [true; false; true; true; false; true] /\
  (forall x, In x (bv_words v) -> N.land x 0x0F0F0F0F <> 0x0F0F0F0F%N /\ N.land x 0xF0F0F0F0 <> 0xF0F0F0F0%N) /\
  (do s <- sb_build true v; sb_select sel s 3) = Ok 5%N.
Proof.
  eexists. split.
  - exists (bv_of_bits [true; false; true; true; false; true]), [true; false; true; true; false; true], []. split; [apply StartBits|].
    split; vm_compute; reflexivity.
  - split; [|vm_compute; reflexivity]. intros x [<-|[]]. split; vm_compute; discriminate.
Qed.

(** The excluded indices read past the sample table, for every word-level select. *)
Theorem C17_select_out_of_bounds : forall v l, bv_reach v l -> (N.of_nat (length l) < 2 ^ 41)%N -> l <> [] ->
  exists s, sb_build true v = Ok s /\
  forall selw k, ones_before_last_block l / 512 < k / 512 -> sb_select selw s k = UB.
Proof.
  intros v l Hr Hs Hn. destruct (select_history v l Hr Hs) as (s & E & _ & A). exists s. split; auto.
Qed.
Print Assumptions C17_select_out_of_bounds.
(** such an index can be below the number of ones: a zero followed by 600 ones, k = 512 *)
Theorem C17_select_refuted : exists v l k, bv_reach v l /\ k < count_true l /\
  (do s <- sb_build true v; sb_select (sel_bmi2 ctz64) s k) = UB.
Proof.
  eexists. exists (false :: repeat true 600), 512. split; [|split].
  - exists (bv_filled 601 true), (repeat true 601), [BVWrite 0 false]. split; [apply StartFilled|].
    split; vm_compute; reflexivity.
  - vm_compute. lia.
  - vm_compute. reflexivity.
Qed.
Print Assumptions C17_select_refuted.
(** and the defect of the portable sel is visible through select *)
Theorem C17_select_portable_refuted : exists v l k p, bv_reach v l /\ is_kth_one l k p /\
  exists q, (do s <- sb_build true v; sb_select sel s k) = Ok q /\ q <> N.of_nat p.
Proof.
  set (l := repeat true 4 ++ repeat false 4 ++ repeat true 4 ++ repeat false 4 ++ repeat true 4 ++ repeat false 4 ++ repeat true 4).
  eexists. exists l, 1, 1. split; [|split].
  - exists (bv_of_bits l), l, []. split; [apply StartBits|]. split; vm_compute; reflexivity.
  - split; reflexivity.
  - eexists. split; [vm_compute; reflexivity|]. discriminate.
Qed.
Print Assumptions C17_select_portable_refuted.

(** ** C18 *)
(** Missing: the same indices as in C17. *)
Theorem C18_rank_select_partial : forall v l, bv_reach v l -> (N.of_nat (length l) < 2 ^ 41)%N ->
  exists s, sb_build true v = Ok s /\
  (forall k, k < count_true l -> k / 512 <= ones_before_last_block l / 512 ->
     exists p, sb_select (sel_bmi2 ctz64) s k = Ok (N.of_nat p) /\ sb_rank s p = Ok (N.of_nat k)) /\
  (forall i, nth_error l i = Some true -> count_true (firstn i l) / 512 <= ones_before_last_block l / 512 ->
     exists k, sb_rank s i = Ok (N.of_nat k) /\ sb_select (sel_bmi2 ctz64) s k = Ok (N.of_nat i)).
Proof.
  intros v l Hr Hs. apply rank_select_history; auto. intros x Hx. apply selw_bmi2. eapply bv_reach_words; eauto.
Qed.
Print Assumptions C18_rank_select_partial.
Example C18_ex : (do v <- bv_of_bits [false; true; true; false; true]; do s <- sb_build true v;
   do p <- sb_select (sel_bmi2 ctz64) s 2; sb_rank s (N.to_nat p)) = Ok 2%N.
Proof. vm_compute. reflexivity. Qed.

Theorem C18_rank_select_portable_partial : forall v l, bv_reach v l -> (N.of_nat (length l) < 2 ^ 41)%N ->
  (forall x, In x (bv_words v) -> N.land x 0x0F0F0F0F <> 0x0F0F0F0F%N /\ N.land x 0xF0F0F0F0 <> 0xF0F0F0F0%N) ->
  exists s, sb_build true v = Ok s /\
  (forall k, k < count_true l -> k / 512 <= ones_before_last_block l / 512 ->
     exists p, sb_select sel s k = Ok (N.of_nat p) /\ sb_rank s p = Ok (N.of_nat k)) /\
  (forall i, nth_error l i = Some true -> count_true (firstn i l) / 512 <= ones_before_last_block l / 512 ->
     exists k, sb_rank s i = Ok (N.of_nat k) /\ sb_select sel s k = Ok (N.of_nat i)).
Proof.
  intros v l Hr Hs Hw. apply rank_select_history; auto. intros x Hx. destruct (Hw x Hx). apply selw_portable; auto. eapply bv_reach_words; eauto.
Qed.
Print Assumptions C18_rank_select_portable_partial.
Example C18_portable_ex : (do v <- bv_of_bits [false; true; true; false; true]; do s <- sb_build true v;
   do k <- sb_rank s 4; sb_select sel s (N.to_nat k)) = Ok 4%N.
Proof. vm_compute. reflexivity. Qed.
