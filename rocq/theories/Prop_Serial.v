(** C122: what the constructors and histories build, Write and Read give back. *)
From Coq Require Import List NArith ZArith Arith Bool Lia Sorted.
From Verif Require Import Base Spec Spec2 Spec5 Spec7 Spec23 MultiBitSpec BitVectorModel SuccinctModel FitVectorModel DacModel MultiBitModel WaveletModel StreamModel
  SamcModel SamcWidthModel StringStreamModel SuccinctProof2 SerialReach WaveletRead.
Import ListNotations.
Local Open Scope nat_scope.

Theorem C122_bitvector : forall v l, bv_reach v l -> (N.of_nat (length l) < 2 ^ 63)%N ->
  bv_size_in_bytes v = length (bv_write v) /\ forall rest, bv_read (bv_write v ++ rest) = Ok (v, rest).
Proof. exact bv_stream. Qed.
Print Assumptions C122_bitvector.

Theorem C122_succinct : forall us v l, bv_reach v l -> (N.of_nat (length l) < 2 ^ 63)%N ->
  exists s, sb_build us v = Ok s /\ sb_size_in_bytes us s = length (sb_write us s) /\
    forall target rest, target = sb_default \/ (exists v' l', bv_reach v' l' /\ sb_build us v' = Ok target) -> sb_read us target (sb_write us s ++ rest) = Ok (s, rest).
Proof. exact sb_stream. Qed.
Print Assumptions C122_succinct.
(** read into a vector of 70 bits *)
Example C122_succinct_ex : exists v, bv_reach v [true; false; true] /\
  (do s <- sb_build true v; do g <- sb_build true (bv_sized 70); do r <- sb_read true g (sb_write true s ++ [7]%N); do k <- sb_rank (fst r) 2; Ok (k, sb_size (fst r), snd r)) = Ok (1%N, 3, [7]%N).
Proof.
  eexists. split.
  - exists (bv_filled 5 true), (repeat true 5), [BVResize 3 false; BVWrite 1 false]. split; [apply StartFilled|]. split; vm_compute; reflexivity.
  - vm_compute. reflexivity.
Qed.

Theorem C122_fitvector : forall w ops n T, 1 <= w <= 63 -> Forall op_word ops -> tape_run w (0, fun _ => false) ops = Some (n, T) -> (N.of_nat n < 2 ^ 63)%N ->
  exists v, fv_run (fv_make w) ops = Ok v /\ fv_size_in_bytes v = length (fv_write v) /\ forall rest, fv_read (fv_write v ++ rest) = Ok (v, rest).
Proof. exact fv_stream. Qed.
Print Assumptions C122_fitvector.
Example C122_fitvector_ex : let ops := [FVAssign 12 5; FVResize 3; FVResize 12; FVWrite 7 8191]%N in Forall op_word ops /\ (exists T, tape_run 7 (0, fun _ => false) ops = Some (12, T)) /\
  (do v <- fv_run (fv_make 7) ops; do r <- fv_read (fv_write v ++ [9]%N); do x <- fv_get (fst r) 8; Ok (x, snd r)) = Ok (63, [9])%N.
Proof. cbv zeta. split; [repeat constructor|]. split; [eexists; reflexivity|]. vm_compute. reflexivity. Qed.

(** size_in_bytes of a DacVector is eight too large (C33) *)
Theorem C122_dacvector : forall units l d, l <> [] -> units <> [] -> (N.of_nat (length l) < 2 ^ 63)%N -> dac_of_list l units = Ok d ->
  exists bytes, dac_write d = Ok bytes /\ dac_size_in_bytes d = Ok (length bytes + 8) /\ forall rest, dac_read (bytes ++ rest) = Ok (d, rest).
Proof. exact dac_stream. Qed.
Print Assumptions C122_dacvector.
Example C122_dacvector_ex : exists d, dac_of_list [3; 300; 0; 70000]%N [4; 5; 8] = Ok d /\ dac_size d = Ok 4.
Proof. eexists. split; vm_compute; reflexivity. Qed.

Theorem C122_multibit : forall U ops, U = 1 \/ U = 2 \/ U = 3 -> Forall (mb_op_fits U) (writes ops) -> Forall (fun o => (N.of_nat (mb_index o) < 2 ^ 57)%N) (writes ops) ->
  exists v, mb_run_b U ops = Ok v /\ mb_size_in_bytes U v = length (mb_write U v) /\ forall rest, mb_read U (mb_write U v ++ rest) = Ok (v, rest).
Proof. exact mb_stream. Qed.
Print Assumptions C122_multibit.
(** tips of a former, longer state are written along *)
Example C122_multibit_ex : let ops := [MBDo (MBSet 100 3); MBBuild; MBDo (MBResize 2)]%N in Forall (mb_op_fits 3) (writes ops) /\
  (do v <- mb_run_b 3 ops; Ok (length (mb_bits v), map (@length tip) (mb_tips v), length (mb_write 3 v))) = Ok (1, [1; 1; 1; 0; 0; 0; 0; 0], 152).
Proof. cbv zeta. split; [repeat constructor|]. vm_compute. reflexivity. Qed.

(** for every code_type for which the dictionary can be built at all (C82) *)
Theorem C122_samcdict : forall cw fuel K t, In cw [1; 2; 4; 8] -> K <> [] -> StronglySorted lex_lt K -> (forall k, In k K -> Forall (fun c => (0 < c < 256)%N) k) -> (forall k, In k K -> length k < fuel) ->
  sd_build fuel K = Ok t -> (N.of_nat (length (sm_storage (sd_samc t))) < 2 ^ 63)%N ->
  forall t', sd_build_w cw fuel K = Ok t' -> forall target rest, dict_read cw target (dict_write cw t' ++ rest) = Ok (t', rest).
Proof. exact dict_stream. Qed.
Print Assumptions C122_samcdict.
Example C122_samcdict_ex : exists t, sd_build_w 2 3 [[97]; [98; 97]]%N = Ok t /\ sd_lookup t [98; 97]%N = Ok (Some 1%N).
Proof. eexists. split; vm_compute; reflexivity. Qed.
