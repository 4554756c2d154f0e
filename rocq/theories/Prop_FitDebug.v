(** C152: FitVector, DacVector and SuffixArray with assertions on *)
From Coq Require Import List NArith Arith Bool Lia.
From Verif Require Import Base Spec Spec7 CalcModel FitVectorModel DacModel DacProof SuffixModel CHTDebugModel FitDebugSpec FitDebugModel FitDebug.
Import ListNotations.
Local Open Scope nat_scope.

(** ** FitVector *)
(** a history whose writes are in range runs as without assertions, whatever the width below 64 and the values *)
Theorem C152_same : forall w ops, w < 64 -> writes_inside 0 ops = true -> fv_run_d w ops = fv_run (fv_make w) ops.
Proof. exact run_same. Qed.
Print Assumptions C152_same.
Example C152_same_ex : let ops := [FVResize 3; FVWrite 2 9; FVPush 70; FVAssign 2 5; FVResizeV 4 1; FVWrite 3 6]%N in
  writes_inside 0 ops = true /\ (do v <- fv_run_d 4 ops; mapM (fv_get_d v) (seq 0 4)) = Ok [5; 5; 1; 6]%N.
Proof. split; vm_compute; reflexivity. Qed.

(** and a write out of range is caught, also where it would land in the words of the vector *)
Theorem C152_caught : forall w ops, 1 <= w <= 63 -> Forall op_word ops -> writes_inside 0 ops = false -> fv_run_d w ops = Throw.
Proof. exact run_throw. Qed.
Print Assumptions C152_caught.
Example C152_caught_ex : let ops := [FVResize 3; FVWrite 3 9]%N in writes_inside 0 ops = false /\ Forall op_word ops /\
  fv_run_d 4 ops = Throw /\ fv_run (fv_make 4) ops = Ok (FV 4 3 [36864%N]).
Proof. cbv zeta. split; [reflexivity|]. split; [repeat constructor|]. split; vm_compute; reflexivity. Qed.

(** reads after a history: the value below size(), a failed assertion elsewhere *)
Theorem C152_reads : forall w ops, 1 <= w <= 63 -> Forall op_word ops -> writes_inside 0 ops = true ->
  exists v, fv_run_d w ops = Ok v /\ fv_run (fv_make w) ops = Ok v /\ fv_size v = fold_left len_after ops 0 /\
    (forall i, i < fv_size v -> exists x, fv_get_d v i = Ok x /\ fv_get v i = Ok x) /\
    (forall i, fv_size v <= i -> fv_get_d v i = Throw /\ forall x, fv_set_d v i x = Throw) /\
    (fv_size v = 0 -> fv_front_d v = Throw /\ fv_back_d v = Throw) /\
    (fv_size v <> 0 -> fv_front_d v = fv_front v /\ fv_back_d v = fv_back v).
Proof. exact run_ok. Qed.
Print Assumptions C152_reads.
Example C152_reads_ex : (do v <- fv_run_d 7 [FVPush 3; FVPush 90]%N; Ok (fv_get_d v 1, fv_get_d v 2, fv_get v 2, fv_front_d v, fv_back_d v)) = Ok (Ok 90%N, Throw, Ok 0%N, Ok 3%N, Ok 90%N) /\
  fv_front_d (fv_make 7) = Throw.
Proof. split; vm_compute; reflexivity. Qed.

(** construction from a list fails no assertion, whatever the values *)
Theorem C152_list : forall l, fv_of_list_d l = fv_of_list l.
Proof. exact list_same. Qed.
Print Assumptions C152_list.
Example C152_list_ex : fv_of_list_d [3; 9; 1]%N = Ok (FV 4 3 [403%N]) /\ fv_of_list_d [2 ^ 63]%N = UB.
Proof. split; vm_compute; reflexivity. Qed.

(** the width 64 passes the assertion and is undefined behind it, a larger one is caught *)
Theorem C152_width : (forall w, w < 64 -> fv_make_d w = Ok (fv_make w)) /\ fv_make_d 64 = UB /\ forall w, 64 < w -> fv_make_d w = Throw.
Proof. exact (conj make_in make_out). Qed.
Print Assumptions C152_width.
Example C152_width_ex : fv_make_d 63 = Ok (fv_make 63) /\ fv_make_d 65 = Throw.
Proof. split; vm_compute; reflexivity. Qed.

(** ** DacVector *)
(** construction with widths below 64 fails no assertion *)
Theorem C152_dac_build : forall units l, units <> [] -> Forall (fun u => u < 64) units -> dac_of_list_d l units = dac_of_list l units.
Proof. exact dac_same. Qed.
Print Assumptions C152_dac_build.
(** the first width that is too large decides *)
Theorem C152_dac_wide : forall a u b l, l <> [] -> Forall (fun u => u < 64) a -> 64 <= u -> dac_of_list_d l (a ++ u :: b) = if u =? 64 then UB else Throw.
Proof. exact dac_bad. Qed.
Print Assumptions C152_dac_wide.
Example C152_dac_build_ex : dac_of_list_d [3; 300]%N [4; 5] = dac_of_list [3; 300]%N [4; 5] /\ dac_of_list_d [3; 300]%N [4; 65; 64] = Throw /\ dac_of_list_d [3; 300]%N [4; 64; 65] = UB.
Proof. split; [|split]; vm_compute; reflexivity. Qed.

(** operator[] passes its assertions at every level below the number of elements, and fails one for every other index *)
Theorem C152_dac_reads : forall units l, l <> [] -> units <> [] -> Forall (fun v => (v < 2 ^ 63)%N) l ->
  Forall (fun u => 1 <= u <= 63) units -> list_sum_nat (removelast units) < max_bits l ->
  exists d, dac_of_list_d l units = Ok d /\ dac_of_list l units = Ok d /\
    forall i, dac_get_d d i = match nth_error l i with Some x => Ok (x mod 2 ^ N.of_nat (list_sum_nat units))%N | None => Throw end.
Proof. exact dac_debug. Qed.
Print Assumptions C152_dac_reads.
Example C152_dac_reads_ex : (do d <- dac_of_list_d [3; 300; 20]%N [4; 5]; Ok (map (dac_get_d d) (seq 0 4))) = Ok [Ok 3%N; Ok 300%N; Ok 20%N; Throw] /\
  (do d <- dac_of_list [3; 300; 20]%N [4; 5]; Ok (dac_get d 3)) = Ok (Ok 0%N).
Proof. split; vm_compute; reflexivity. Qed.

(** the default-constructed DacVector has an empty first layer *)
Theorem C152_dac_default : forall i, dac_get_d dac_default i = Throw.
Proof. exact default_get. Qed.
Print Assumptions C152_dac_default.
Example C152_dac_default_ex : dac_get_d dac_default 0 = Throw /\ dac_get dac_default 0 = UB.
Proof. split; vm_compute; reflexivity. Qed.

(** ** SuffixArray: no text makes the construction fail an assertion *)
Theorem C152_suffix : forall s, suffix_array_d s = suffix_array s.
Proof. exact suffix_same. Qed.
Print Assumptions C152_suffix.
Example C152_suffix_ex : exists sa lcp, suffix_array_d [98; 97; 110; 97; 110; 97]%N = Ok (sa, lcp) /\ mapM (fv_get_d sa) (seq 0 6) = Ok [5; 3; 1; 0; 4; 2]%N /\ fv_get_d sa 6 = Throw.
Proof. eexists. eexists. split; [vm_compute; reflexivity|]. split; vm_compute; reflexivity. Qed.
