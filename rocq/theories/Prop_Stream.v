(** Properties C31, C32 and C33 (basic.hpp and the Read/Write/size_in_bytes members). *)
From Coq Require Import List NArith ZArith Lia Bool Arith.
From Verif Require Import Base Spec Spec2 BitVectorModel SuccinctModel FitVectorModel DacModel MultiBitModel WaveletModel StreamModel StreamProof.
Import ListNotations.
Local Open Scope nat_scope.

(** ** C31 *)
Theorem C31_value : forall n x rest, (x < 2 ^ N.of_nat (8 * n))%N -> read_val n (write_val n x ++ rest) = Ok (x, rest).
Proof. intros n x rest H. exact (rt_val n x H rest). Qed.
Print Assumptions C31_value.
Theorem C31_vector : forall n l rest, size_fits (length l) -> Forall (fun x => (x < 2 ^ N.of_nat (8 * n))%N) l ->
  read_vec (read_val n) (write_vec (write_val n) l ++ rest) = Ok (l, rest).
Proof.
  intros n l rest H F. apply (rt_vec _ (read_val n) (write_val n) l H). eapply Forall_impl; [|exact F]. intros. now apply rt_val.
Qed.
Print Assumptions C31_vector.
Theorem C31_string : forall l rest, size_fits (length l) -> read_string (write_string l ++ rest) = Ok (l, rest).
Proof. intros l rest H. exact (rt_string l H rest). Qed.
Print Assumptions C31_string.
Example C31_ex : write_vec (write_val 4) [1; 70000]%N = [2; 0; 0; 0; 0; 0; 0; 0; 1; 0; 0; 0; 112; 17; 1; 0]%N /\
  read_vec (read_val 4) ([2; 0; 0; 0; 0; 0; 0; 0; 1; 0; 0; 0; 112; 17; 1; 0] ++ [9; 9])%N = Ok ([1; 70000]%N, [9; 9]%N) /\
  read_string (write_string [104; 105]%N ++ [7]%N) = Ok ([104; 105]%N, [7]%N).
Proof. repeat split; vm_compute; reflexivity. Qed.

(** ** C32 *)
(** Missing: FitVector of width 64, DacVectors whose vectors do not match num_layers_ (default-constructed),
    WaveletTree targets with another number of nodes. *)
Theorem C32_bitvector_partial : forall v rest, bv_fits v -> bv_read (bv_write v ++ rest) = Ok (v, rest).
Proof. intros v rest H. exact (rt_bv v H rest). Qed.
Print Assumptions C32_bitvector_partial.
Theorem C32_succinct_select_partial : forall s target rest, sb_fits s -> sb_read true target (sb_write true s ++ rest) = Ok (s, rest).
Proof. intros s target rest H. apply (rt_sb true s target H). discriminate. Qed.
Print Assumptions C32_succinct_select_partial.
Theorem C32_succinct_rank_partial : forall s target rest, sb_fits s -> sb_tips s = [] -> sb_tips target = [] ->
  sb_read false target (sb_write false s ++ rest) = Ok (s, rest).
Proof. intros s target rest H A B. apply (rt_sb false s target H). congruence. Qed.
Print Assumptions C32_succinct_rank_partial.
Theorem C32_fitvector_partial : forall v rest, fv_fits v -> fv_width v < 64 -> fv_read (fv_write v ++ rest) = Ok (v, rest).
Proof. intros v rest H W. exact (rt_fv v H W rest). Qed.
Print Assumptions C32_fitvector_partial.
Theorem C32_dacvector_partial : forall d rest, dac_shape d -> dac_fits d ->
  exists w, dac_write d = Ok w /\ dac_read (w ++ rest) = Ok (d, rest).
Proof. intros d rest A B. destruct (rt_dac d A B) as (w & E & R). exists w. split; [exact E|apply R]. Qed.
Print Assumptions C32_dacvector_partial.
Theorem C32_multibit_partial : forall U v rest, U = 1 \/ U = 2 \/ U = 3 -> mb_fits U v -> mb_read U (mb_write U v ++ rest) = Ok (v, rest).
Proof. intros U v rest A B. exact (rt_mb U v A B rest). Qed.
Print Assumptions C32_multibit_partial.
Theorem C32_wavelet_partial : forall t target rest, wt_fits t -> length (wt_nodes target) = length (wt_nodes t) ->
  Forall (fun p => sb_tips p = []) (wt_nodes target) -> wt_read target (wt_write t ++ rest) = Ok (t, rest).
Proof. intros t target rest A B C. exact (rt_wt t target A B C rest). Qed.
Print Assumptions C32_wavelet_partial.
Example C32_ex :
  (do d <- dac_of_list [3; 300; 0; 70000]%N [4; 5; 8]; do w <- dac_write d; do r <- dac_read (w ++ [42%N]);
   do x <- dac_get (fst r) 3; Ok (x, snd r)) = Ok (70000%N, [42%N]) /\
  (do t <- wt_make [3; 1; 2; 3]%N; do u <- wt_make [0; 2]%N; do r <- wt_read u (wt_write t ++ [42%N]);
   do x <- wt_rank (fst r) 3; Ok (x, snd r)) = Ok (1, [42%N]) /\
  (do v <- mb_run 3 [MBSet 5 3; MBSet 9 3]%N; do v <- mb_build 3 v; do r <- mb_read 3 (mb_write 3 v ++ [42%N]);
   do x <- mb_rank 3 (fst r) 9; Ok (x, snd r)) = Ok (1%N, [42%N]).
Proof. repeat split; vm_compute; reflexivity. Qed.

(** A default-constructed DacVector writes bytes that Read does not consume. *)
Theorem C32_default_dac_refuted : exists w d s, dac_write dac_default = Ok w /\ dac_read w = Ok (d, s) /\ s <> [].
Proof.
  destruct (dac_write dac_default) as [w| | |] eqn:E; try discriminate.
  destruct (dac_read w) as [[d s]| | |] eqn:E2; [exists w, d, s|..]; revert E2; injection E as <-; vm_compute; intros H; try discriminate.
  injection H as <- <-. repeat split; discriminate.
Qed.
Print Assumptions C32_default_dac_refuted.
(** A WaveletTree read into a tree over a smaller alphabet leaves bytes unread and cannot answer queries. *)
Theorem C32_wavelet_refuted : exists l l' t t' u s, wt_make l = Ok t /\ wt_make l' = Ok t' /\
  wt_read t' (wt_write t) = Ok (u, s) /\ s <> [] /\ wt_rank t 3 = Ok 1 /\ wt_rank u 3 = UB.
Proof.
  exists [3; 1; 2; 3]%N, [0; 1]%N. destruct (wt_make [3; 1; 2; 3]%N) as [t| | |] eqn:E; try (vm_compute in E; discriminate).
  destruct (wt_make [0; 1]%N) as [t'| | |] eqn:E'; try (vm_compute in E'; discriminate).
  vm_compute in E, E'. injection E as <-. injection E' as <-. eexists _, _, _, _. split; [reflexivity|]. split; [reflexivity|].
  split; [vm_compute; reflexivity|]. split; [discriminate|]. split; vm_compute; reflexivity.
Qed.
Print Assumptions C32_wavelet_refuted.
(** Reading a FitVector of width 64 (the default width) shifts by 64. *)
Theorem C32_fitvector_64_undefined : forall v rest, fv_fits v -> 64 <= fv_width v -> fv_read (fv_write v ++ rest) = UB.
Proof. exact fv_read_64. Qed.
Print Assumptions C32_fitvector_64_undefined.

(** ** C33 *)
Theorem C33_bitvector_partial : forall v, bv_size_in_bytes v = length (bv_write v).
Proof. exact bv_size_bytes. Qed.
Print Assumptions C33_bitvector_partial.
Theorem C33_succinct_partial : forall us s, sb_size_in_bytes us s = length (sb_write us s).
Proof. exact sb_size_bytes. Qed.
Print Assumptions C33_succinct_partial.
Theorem C33_fitvector_partial : forall v, fv_size_in_bytes v = length (fv_write v).
Proof. exact fv_size_bytes. Qed.
Print Assumptions C33_fitvector_partial.
Theorem C33_multibit_partial : forall U v, mb_fits U v -> mb_size_in_bytes U v = length (mb_write U v).
Proof. exact mb_size_bytes. Qed.
Print Assumptions C33_multibit_partial.
Theorem C33_wavelet_partial : forall t, wt_size_in_bytes t = length (wt_write t).
Proof. exact wt_size_bytes. Qed.
Print Assumptions C33_wavelet_partial.
(** A rank tip takes the least multiple of 8 bytes that holds its 8-byte count and its counts of one byte. *)
Theorem C33_tip_layout : forall U t, U = 1 \/ U = 2 \/ U = 3 -> length (tip_L2 t) = kBlocksInTipSize U ->
  let used := 8 + length (tip_L2 t) in let total := length (tip_write U t) in total mod 8 = 0 /\ used <= total < used + 8.
Proof. exact tip_layout. Qed.
Print Assumptions C33_tip_layout.
Example C33_tip_layout_ex : length (tip_write 1 (Tip 7 [0; 1; 2; 3]%N)) = 16 /\ length (tip_write 2 (Tip 7 [0; 1; 2; 3; 4; 5; 6; 7]%N)) = 16.
Proof. split; vm_compute; reflexivity. Qed.
(** DacVector reports 8 bytes too many: the length word that size_vec counts is not written. *)
Theorem C33_dac_eight_more : forall d, dac_shape d -> exists w, dac_write d = Ok w /\ dac_size_in_bytes d = Ok (length w + 8).
Proof. exact dac_size_bytes. Qed.
Print Assumptions C33_dac_eight_more.
Theorem C33_dac_refuted : exists l units d w n, dac_of_list l units = Ok d /\ dac_write d = Ok w /\ dac_size_in_bytes d = Ok n /\ n <> length w.
Proof.
  exists [3; 300; 0; 70000]%N, [4; 5; 8]. destruct (dac_of_list [3; 300; 0; 70000]%N [4; 5; 8]) as [d| | |] eqn:E; try (vm_compute in E; discriminate).
  vm_compute in E. injection E as <-. eexists _, _, _. split; [reflexivity|]. split; [vm_compute; reflexivity|]. split; [vm_compute; reflexivity|].
  vm_compute. discriminate.
Qed.
Print Assumptions C33_dac_refuted.
Example C33_ex : (do t <- wt_make [3; 1; 2; 3]%N; Ok (wt_size_in_bytes t, length (wt_write t))) = Ok (168, 168).
Proof. vm_compute; reflexivity. Qed.
