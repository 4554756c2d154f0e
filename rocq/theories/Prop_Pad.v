(** C143: the padding bytes of the rank tips of a MultiBitVector, and its images cut short. *)
From Coq Require Import List NArith ZArith Arith Bool Lia.
From Verif Require Import Base Spec Spec2 Spec13 Spec23 MultiBitSpec BitUtilModel MultiBitModel StreamModel ShortStreamModel PadModel PadProof.
Import ListNotations.
Local Open Scope nat_scope.

(** streams of any length read into any object, bytes of the padding included *)
Theorem C143_read : forall U target, pm_fits U target -> forall bs, Forall byte bs ->
  (forall p st, s_mb U target (bs, true) = Ok (p, st) <-> pm_fits U p /\ reads bs (pm_write p) (tips_old U (pm_tips target) (pm_tips p)) st) /\
  (s_mb U target (bs, true) = UB \/ exists r, s_mb U target (bs, true) = Ok r).
Proof. exact (fun U t H => proj2 (exact_mb U t H)). Qed.
Print Assumptions C143_read.
(** the second tip of the last array is cut in its L2: those bytes and the padding are the old ones *)
Example C143_read_ex : let t a b := ((Tip a [b; b; b; b], [9; 9; 9; 9]) : ptip)%N in
  s_mb 1 (PMB [7]%N [[]; [t 1 2; t 3 4]]%N) (write_size 0 ++ write_size 0 ++ write_size 2 ++ ptip_write (t 5 6)%N ++ write_val 8 7 ++ [8; 8]%N, true) =
  Ok (PMB [] [[]; [t 5 6; (Tip 7 [8; 8; 4; 4], [9; 9; 9; 9])]]%N, ([], false)).
Proof. vm_compute. reflexivity. Qed.

(** what the operations build is read back whatever the padding, into any object, and no image cut short is read *)
Theorem C143_history : forall U ops, U = 1 \/ U = 2 \/ U = 3 -> Forall (mb_op_fits U) (writes ops) -> Forall (fun o => (N.of_nat (mb_index o) < 2 ^ 57)%N) (writes ops) ->
  exists v, mb_run_b U ops = Ok v /\ forall p, pm_members p = v -> Forall (Forall (fun t => length (snd t) = tip_pad U /\ Forall byte (snd t))) (pm_tips p) ->
    length (pm_write p) = mb_size_in_bytes U v /\ (forall rest, mb_read U (pm_write p ++ rest) = Ok (v, rest)) /\
    forall target, pm_fits U target -> (forall rest, Forall byte rest -> s_mb U target (pm_write p ++ rest, true) = Ok (p, (rest, true))) /\
      forall bs more, pm_write p = bs ++ more -> more <> [] -> s_mb U target (bs, true) = UB.
Proof. exact mb_padded. Qed.
Print Assumptions C143_history.
Example C143_history_ex : let ops := [MBDo (MBSet 30 2); MBBuild; MBDo (MBSet 1 1)]%N in
  let p := PMB [8; 0x10000000]%N [[(Tip 0 [0; 0; 0; 0; 0; 0; 0; 0; 0; 0; 0; 0], [1; 2; 3; 255])]; [(Tip 0 [0; 0; 1; 1; 1; 1; 1; 1; 1; 1; 1; 1], [4; 5; 6; 7])]; []; []; []; []; []; []]%N in
  Forall (mb_op_fits 3) (writes ops) /\ mb_run_b 3 ops = Ok (pm_members p) /\ Forall (Forall (fun t => length (snd t) = tip_pad 3 /\ Forall byte (snd t))) (pm_tips p) /\
  length (pm_write p) = 136 /\ (do r <- mb_read 3 (pm_write p); mb_rank 3 (fst r) 30) = Ok 0%N.
Proof. cbv zeta. split; [repeat constructor|]. split; [vm_compute; reflexivity|]. split; [repeat constructor|]. vm_compute. auto. Qed.
