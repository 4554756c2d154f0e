(** C103: reading from streams of any length. *)
From Coq Require Import List NArith ZArith Arith Bool Lia.
From Verif Require Import Base Spec Spec13 BitUtilModel BitVectorModel SuccinctModel FitVectorModel DacModel WaveletModel StreamModel SamcModel StringStreamModel ShortStreamModel ShortStream.
Import ListNotations.
Local Open Scope nat_scope.

(** read_val, read_vec of unsigned integers and read_string *)
Theorem C103_val : forall n bs, Forall byte bs ->
  (forall x st, s_val n (bs, true) = Ok (x, st) <-> (x < 2 ^ N.of_nat (8 * n))%N /\ reads bs (write_val n x) [] st) /\ (s_val n (bs, true) = UB \/ exists r, s_val n (bs, true) = Ok r).
Proof. exact (fun n => proj2 (exact_val n)). Qed.
Print Assumptions C103_val.
Theorem C103_vec : forall n old, Forall (fun x => (x < 2 ^ N.of_nat (8 * n))%N) old -> forall bs, Forall byte bs ->
  (forall l st, s_ints n old (bs, true) = Ok (l, st) <-> (size_fits (length l) /\ Forall (fun x => (x < 2 ^ N.of_nat (8 * n))%N) l) /\ reads bs (write_vec (write_val n) l) (concat (map (write_val n) (lresize old (length l) 0%N))) st) /\
  (s_ints n old (bs, true) = UB \/ exists r, s_ints n old (bs, true) = Ok r).
Proof. exact (fun n old H => proj2 (exact_ints n old H)). Qed.
Print Assumptions C103_vec.
Theorem C103_string : forall bs, Forall byte bs ->
  (forall l st, s_string (bs, true) = Ok (l, st) <-> (size_fits (length l) /\ Forall byte l) /\ reads bs (write_string l) (repeat 0%N (length l)) st) /\ (s_string (bs, true) = UB \/ exists r, s_string (bs, true) = Ok r).
Proof. exact (proj2 exact_string). Qed.
Print Assumptions C103_string.
(** a vector of four-byte numbers cut in its second element: the bytes missing are those of the old second element *)
Example C103_vec_ex : s_ints 4 [1; 0x01020304; 9]%N (write_size 2 ++ [7; 0; 0; 0; 8], true)%N = Ok ([7; 0x01020308]%N, ([], false)) /\ s_ints 4 [] (write_size 2 ++ [7; 0; 0; 0; 8; 0; 0; 0; 5], true)%N = Ok ([7; 8]%N, ([5]%N, true)) /\
  s_ints 4 [1; 2]%N ([2; 0; 0], true)%N = UB /\ s_ints 4 [1; 2]%N ([], false) = UB.
Proof. vm_compute. auto. Qed.
Example C103_string_ex : s_string (write_size 4 ++ [97; 98], true)%N = Ok ([97; 98; 0; 0]%N, ([], false)).
Proof. vm_compute. reflexivity. Qed.

(** BitVector and SuccinctBitVector, read into any object *)
Theorem C103_bitvector : forall target, bv_fits target -> forall bs, Forall byte bs ->
  (forall v st, s_bv target (bs, true) = Ok (v, st) <-> bv_fits v /\ reads bs (bv_write v) (bv_old target v) st) /\ (s_bv target (bs, true) = UB \/ exists r, s_bv target (bs, true) = Ok r).
Proof. exact (fun t H => proj2 (exact_bv t H)). Qed.
Print Assumptions C103_bitvector.
Theorem C103_succinct : forall us target, sb_fits target -> forall bs, Forall byte bs ->
  (forall s st, s_sb us target (bs, true) = Ok (s, st) <-> (sb_fits s /\ (us = false -> sb_tips s = sb_tips target)) /\ reads bs (sb_write us s) (sb_old us target s) st) /\ (s_sb us target (bs, true) = UB \/ exists r, s_sb us target (bs, true) = Ok r).
Proof. exact (fun us t H => proj2 (exact_sb us t H)). Qed.
Print Assumptions C103_succinct.
Example C103_bitvector_ex : s_bv (BV 64 [0xFFFFFFFFFFFFFFFF]%N) (write_size 10 ++ write_size 1 ++ [5; 0; 0; 0; 0], true)%N = Ok (BV 10 [0xFFFFFF0000000005]%N, ([], false)) /\
  s_bv (BV 64 [0xFFFFFFFFFFFFFFFF]%N) (write_size 10 ++ [1; 0], true)%N = UB.
Proof. vm_compute. auto. Qed.
(** cut in the bits: the counts are missing, undefined; cut in the counts: defined *)
Example C103_succinct_ex : s_sb false sb_default (write_size 3 ++ write_size 1 ++ [5], true)%N = UB /\
  s_sb false sb_default (write_size 3 ++ write_size 1 ++ write_val 8 5 ++ write_size 2 ++ [1], true)%N = Ok (SBV (BV 3 [5%N]) [1; 0]%N [], ([], false)).
Proof. vm_compute. auto. Qed.

(** FitVector, DacVector *)
Theorem C103_fitvector : forall bs, Forall byte bs ->
  (forall v st, s_fv (bs, true) = Ok (v, st) <-> (fv_fits v /\ fv_width v < 64) /\ reads bs (fv_write v) (fv_old v) st) /\ (s_fv (bs, true) = UB \/ exists r, s_fv (bs, true) = Ok r).
Proof. exact (proj2 exact_fv). Qed.
Print Assumptions C103_fitvector.
Theorem C103_dacvector : forall bs, Forall byte bs ->
  (forall d st, s_dac (bs, true) = Ok (d, st) <-> (dac_shape d /\ dac_fits d) /\ reads bs (dac_image d) (dac_old d) st) /\ (s_dac (bs, true) = UB \/ exists r, s_dac (bs, true) = Ok r).
Proof. exact (proj2 exact_dac). Qed.
Print Assumptions C103_dacvector.
Theorem C103_dacvector_image : forall d, dac_shape d -> dac_write d = Ok (dac_image d).
Proof. exact dac_image_ok. Qed.
Print Assumptions C103_dacvector_image.
Example C103_fitvector_ex : s_fv (write_size 5 ++ write_size 3 ++ write_size 1 ++ [0x22; 0x11], true)%N = Ok (FV 5 3 [0x1122]%N, ([], false)) /\ s_fv (write_size 64 ++ write_size 3 ++ write_size 1 ++ write_val 8 5, true)%N = UB.
Proof. vm_compute. auto. Qed.
Example C103_dacvector_ex : s_dac (write_size 1 ++ write_size 5 ++ write_size 5 ++ write_size 3 ++ write_size 1 ++ [0x22; 0x11], true)%N = Ok (Dac (Some 1) [5] [FV 5 3 [0x1122]%N] [], ([], false)) /\ s_dac (write_size 2 ++ write_size 5, true) = UB.
Proof. vm_compute. auto. Qed.

(** WaveletTree with at least one node; the second component is size_ *)
Theorem C103_wavelet : forall target, wt_nodes target <> [] -> Forall sb_fits (wt_nodes target) -> forall bs, Forall byte bs ->
  (forall x st, s_wt target (bs, true) = Ok (x, st) <-> (size_fits (wt_height (fst x)) /\ word_fits (wt_leafs (fst x)) /\ word_fits (snd x) /\ same_tips (wt_nodes target) (wt_nodes (fst x))) /\
    reads bs (wt_image x) (nodes_old (wt_nodes target) (wt_nodes (fst x))) st) /\ (s_wt target (bs, true) = UB \/ exists r, s_wt target (bs, true) = Ok r).
Proof. exact (fun t H1 H2 => proj2 (exact_wt t H1 H2)). Qed.
Print Assumptions C103_wavelet.
Example C103_wavelet_ex : s_wt (WT 1 2%N [sb_default]) (write_size 1 ++ write_val 8 2 ++ write_val 8 0 ++ write_size 3 ++ write_size 1 ++ write_val 8 5 ++ write_size 2 ++ [1], true)%N = Ok ((WT 1 2%N [SBV (BV 3 [5%N]) [1; 0]%N []], 0%N), ([], false)).
Proof. vm_compute. reflexivity. Qed.

(** Samc, SamcDict, SuffixArray *)
Theorem C103_samc : forall cw target, samc_fits cw target -> forall bs, Forall byte bs ->
  (forall s st, s_samc cw target (bs, true) = Ok (s, st) <-> samc_fits cw s /\ reads bs (samc_write cw s) (samc_old cw target s) st) /\ (s_samc cw target (bs, true) = UB \/ exists r, s_samc cw target (bs, true) = Ok r).
Proof. exact (fun cw t H => proj2 (exact_samc cw t H)). Qed.
Print Assumptions C103_samc.
Theorem C103_samcdict : forall cw target, samc_fits cw (sd_samc target) -> sb_fits (sd_leaves target) -> forall bs, Forall byte bs ->
  (forall t st, s_dict cw target (bs, true) = Ok (t, st) <-> (samc_fits cw (sd_samc t) /\ sb_fits (sd_leaves t)) /\ reads bs (dict_write cw t) (dict_old target t) st) /\ (s_dict cw target (bs, true) = UB \/ exists r, s_dict cw target (bs, true) = Ok r).
Proof. exact (fun cw t H1 H2 => proj2 (exact_dict cw t H1 H2)). Qed.
Print Assumptions C103_samcdict.
Theorem C103_suffixarray : forall bs, Forall byte bs ->
  (forall x st, s_sufarr (bs, true) = Ok (x, st) <-> ((size_fits (length (fst x)) /\ Forall byte (fst x)) /\ (fv_fits (fst (snd x)) /\ fv_width (fst (snd x)) < 64) /\ (fv_fits (snd (snd x)) /\ fv_width (snd (snd x)) < 64)) /\
    reads bs (sufarr_write (fst x) (snd x)) (fv_old (snd (snd x))) st) /\ (s_sufarr (bs, true) = UB \/ exists r, s_sufarr (bs, true) = Ok r).
Proof. exact (proj2 exact_sufarr). Qed.
Print Assumptions C103_suffixarray.
(** no letters, no code rows, the second head cut and completed from the old object *)
Example C103_samc_ex : s_samc 2 {| sm_storage := [1]%N; sm_codes := []; sm_head := [1; 0x302] |} (write_size 0 ++ write_size 0 ++ write_size 2 ++ [9; 0; 7], true)%N = Ok ({| sm_storage := []; sm_codes := []; sm_head := [9; 0x307] |}, ([], false)).
Proof. vm_compute. reflexivity. Qed.
Example C103_samcdict_ex : s_dict 2 {| sd_samc := {| sm_storage := []; sm_codes := []; sm_head := [] |}; sd_leaves := SBV bv_default [] [5; 0x01020304]%N |}
  (write_size 0 ++ write_size 0 ++ write_size 0 ++ write_size 1 ++ write_size 1 ++ write_val 8 1 ++ write_size 0 ++ write_size 2 ++ [0; 0; 0; 0; 7], true)%N =
  Ok ({| sd_samc := {| sm_storage := []; sm_codes := []; sm_head := [] |}; sd_leaves := SBV (BV 1 [1%N]) [] [0; 0x01020307]%N |}, ([], false)).
Proof. vm_compute. reflexivity. Qed.
Example C103_suffixarray_ex : s_sufarr (write_string [97]%N ++ write_size 1 ++ write_size 1 ++ write_size 1 ++ write_val 8 0 ++ write_size 1 ++ write_size 1 ++ write_size 1 ++ [3], true)%N = Ok (([97]%N, (FV 1 1 [0]%N, FV 1 1 [3]%N)), ([], false)) /\
  s_sufarr (write_string [97]%N ++ write_size 1 ++ write_size 1 ++ write_size 1 ++ [3], true)%N = UB.
Proof. vm_compute. auto. Qed.
