(** C70: Read, Write and size_in_bytes of Samc, SamcDict and SuffixArray. *)
From Coq Require Import List NArith ZArith Lia Bool Arith.
From Verif Require Import Base Spec BitVectorModel SuccinctModel FitVectorModel StreamModel SuffixModel SamcModel StringStreamModel StringStreamProof.
Import ListNotations.
Local Open Scope nat_scope.

Theorem C70_samc : forall cw s rest, samc_fits cw s -> samc_read cw (samc_write cw s ++ rest) = Ok (s, rest).
Proof. intros cw s rest H. exact (rt_samc cw s H rest). Qed.
Print Assumptions C70_samc.
Example C70_samc_ex : samc_fits 4 {| sm_storage := [94; 0; 97]%N; sm_codes := [repeat 70000%N 256]; sm_head := [0; 1; 3] |} /\
  skipn 1051 (samc_write 4 {| sm_storage := [94; 0; 97]%N; sm_codes := [repeat 70000%N 256]; sm_head := [0; 1; 3] |}) = [0; 0; 0; 0; 1; 0; 0; 0; 3; 0; 0; 0]%N.
Proof.
  split; [|vm_compute; reflexivity]. split; [reflexivity|]. split; [repeat constructor|]. split; [reflexivity|]. split.
  - constructor; [|constructor]. split; [reflexivity|]. apply Forall_forall. intros x X. apply repeat_spec in X. subst x. reflexivity.
  - split; [reflexivity|]. repeat constructor.
Qed.
Theorem C70_samcdict : forall cw t target rest, samc_fits cw (sd_samc t) -> sb_fits (sd_leaves t) -> dict_read cw target (dict_write cw t ++ rest) = Ok (t, rest).
Proof. intros cw t target rest A B. exact (rt_dict cw t target A B rest). Qed.
Print Assumptions C70_samcdict.
Theorem C70_suffixarray : forall s a rest, size_fits (length s) -> fv_fits (fst a) -> fv_width (fst a) < 64 -> fv_fits (snd a) -> fv_width (snd a) < 64 ->
  sufarr_read (sufarr_write s a ++ rest) = Ok ((s, a), rest).
Proof. intros s a rest H A A' B B'. exact (rt_sufarr s a H A A' B B' rest). Qed.
Print Assumptions C70_suffixarray.
Theorem C70_sizes : forall cw t, Forall (fun row => length row = 256) (sm_codes (sd_samc t)) ->
  samc_size_in_bytes cw (sd_samc t) = length (samc_write cw (sd_samc t)) /\ dict_size_in_bytes cw t = length (dict_write cw t).
Proof. intros cw t H. split; [now apply samc_size_bytes|now apply dict_size_bytes]. Qed.
Print Assumptions C70_sizes.
Example C70_dict_ex : exists t, sd_build 3 [[97]; [98; 97]]%N = Ok t /\ length (dict_write 1 t) = dict_size_in_bytes 1 t /\
  rmap (fun r => (sd_lookup (fst r) [98; 97]%N, snd r)) (dict_read 1 t (dict_write 1 t ++ [5]%N)) = Ok (sd_lookup t [98; 97]%N, [5]%N).
Proof. eexists. split; [vm_compute; reflexivity|]. split; vm_compute; reflexivity. Qed.

(** the suffix from an index on; behind the end the constructor of the view throws *)
Theorem C70_suffix : forall s i, (N.of_nat (length s) < 2 ^ 64)%N -> suffix_from s i = if length s <? i then Throw else Ok (skipn i s).
Proof. exact suffix_from_ok. Qed.
Print Assumptions C70_suffix.
Example C70_suffix_ex : suffix_from [98; 97; 99]%N 1 = Ok [97; 99]%N /\ suffix_from [98; 97; 99]%N 4 = Throw.
Proof. split; reflexivity. Qed.
