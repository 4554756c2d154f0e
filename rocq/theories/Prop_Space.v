(** C139: the memory of BitVector, FitVector, WaveletTree and CompactHashTable. *)
From Coq Require Import List NArith ZArith Arith Bool.
From Verif Require Import Base Spec Spec4 Spec7 Spec31 Spec32 BitVectorModel FitVectorModel SuccinctModel WaveletModel CHTModel DacSpaceModel SpaceModel SpaceProof.
Import ListNotations.
Local Open Scope nat_scope.

Theorem C139_bitvector : forall v l, bv_reach v l -> N.of_nat (length (bv_words v)) = bits_words (N.of_nat (length l)).
Proof. exact bv_space. Qed.
Print Assumptions C139_bitvector.
(** the words of 130 bits are given back when 3 remain, and one word stays when none do *)
Example C139_bitvector_ex : (do v <- bv_filled 130 true; do w <- bv_run v [BVResize 3 false]; do x <- bv_run v [BVResize 0 false]; Ok (length (bv_words v), length (bv_words w), length (bv_words x))) = Ok (3, 1, 1) /\
  map bits_words [130; 3; 0]%N = [3; 1; 1]%N.
Proof. vm_compute. auto. Qed.

Theorem C139_fitvector : forall w ops n T, 1 <= w <= 63 -> Forall op_word ops -> tape_run w (0, fun _ => false) ops = Some (n, T) ->
  exists v, fv_run (fv_make w) ops = Ok v /\ fv_size v = n /\ N.of_nat (length (fv_words v)) = words_for (N.of_nat n * N.of_nat w).
Proof. exact fv_space. Qed.
Print Assumptions C139_fitvector.
Example C139_fitvector_ex : let ops := [FVAssign 40 5; FVPush 9; FVResize 20]%N in Forall op_word ops /\ (exists T, tape_run 7 (0, fun _ => false) ops = Some (20, T)) /\
  (do v <- fv_run (fv_make 7) ops; Ok (length (fv_words v))) = Ok 3 /\ words_for (20 * 7) = 3%N.
Proof. cbv zeta. split; [repeat constructor|]. split; [eexists; reflexivity|]. vm_compute. auto. Qed.

(** the nodes hold one bit per element and level between them, but there are as many of them as the largest symbol has values below its leading bit *)
Theorem C139_wavelet : forall l, l <> [] -> Forall (fun x => (x < 2 ^ 31)%N) l ->
  exists t, wt_make l = Ok t /\ let h := bits_needed (max_element l) in wt_height t = h /\ length (wt_nodes t) = 2 ^ h - 1 /\
    list_sum (map sb_size (wt_nodes t)) = length l * h /\
    3 * (2 ^ h - 1) <= wt_words t /\ 5 * (length l * h) <= 256 * wt_words t /\ 256 * wt_words t <= 5 * (length l * h) + 768 * (2 ^ h - 1).
Proof. exact wt_space. Qed.
Print Assumptions C139_wavelet.
(** a single element: 31 nodes of 3 words to hold 5 bits *)
Example C139_wavelet_ex : (do t <- wt_make [20]%N; Ok (wt_height t, length (wt_nodes t), wt_words t, list_sum (map sb_size (wt_nodes t)))) = Ok (5, 31, 93, 5).
Proof. vm_compute. reflexivity. Qed.

Theorem C139_table : forall kb VB VW L bb ops, kb <= 60 -> 1 <= L <= 99 -> 1 <= VW <= 63 -> VB = 0 \/ VB = VW ->
  1 <= bb <= 60 -> 1 <= 2 ^ bb * L / 100 -> (N.of_nat (length ops) < 2 ^ 50)%N -> Forall (map_op_in kb VW) ops ->
  exists t b, cht_run VB L kb (2 ^ bb) VW ops = Ok t /\ ch_bucket t = 2 ^ b /\ N.of_nat (cht_words t) = table_words kb VW b /\
    100 * distinct_keys ops <= 2 ^ b * L /\ (b <= bb \/ 2 ^ b * L <= 198 * asked ops \/ 2 ^ b * L <= 396 * distinct_keys ops).
Proof. exact cht_space. Qed.
Print Assumptions C139_table.
(** five keys of 5 bits: 16 slots of 1 + 4 + 4 bits, in 2 words and 1 word *)
Example C139_table_ex :
  let ops := [MapSet 5 1; MapSet 9 2; MapSet 5 3; MapSet 12 4; MapSet 30 5; MapSet 2 6]%N in
  (50 <= 99 /\ 1 <= 2 ^ 3 * 50 / 100 /\ Forall (map_op_in 5 4) ops) /\
  (do t <- cht_run 0 50 5 (2 ^ 3) 4 ops; Ok (ch_bucket t, cht_words t)) = Ok (2 ^ 4, 3) /\ table_words 5 4 4 = 3%N /\ (100 * distinct_keys ops, 2 ^ 4 * 50, 396 * distinct_keys ops) = (500, 800, 1980).
Proof. split; [|vm_compute; auto]. repeat split; try (apply Nat.leb_le; vm_compute; reflexivity). repeat constructor. Qed.
