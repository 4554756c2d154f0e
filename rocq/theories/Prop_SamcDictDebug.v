(** C93: SamcDict with assertions on. *)
From Coq Require Import List NArith Arith Bool Lia Permutation.
From Verif Require Import Base Spec5 Spec10 BitUtilModel SuccinctModel SamcModel SamcDebugModel SamcDictDebug.
Import ListNotations.
Local Open Scope nat_scope.

(** [Throw] is a failed assertion; the select of BMI2 targets *)
Theorem C93_assertions : forall K, K <> [] -> (forall k, In k K -> bytes k) -> forall fuel, (forall k, In k K -> length (c_string k) < fuel) -> let D := nodup (list_eq_dec N.eq_dec) (map c_string K) in
  exists t id, sd_build fuel K = Ok t /\ Permutation (map id D) (seq 0 (length D)) /\
    (scattered K -> sd_build_d fuel K = Throw) /\ (~ scattered K -> sd_build_d fuel K = Ok t) /\
    (forall q, bytes q -> sd_lookup_d t q = sd_lookup t q) /\ (forall q, In q D -> sd_lookup t q = Ok (Some (N.of_nat (id q)))) /\
    ((N.of_nat (length (sm_storage (sd_samc t))) < 2 ^ 41)%N -> forall q, In q D -> id q < 512 -> sd_access (sel_bmi2 ctz64) t (id q) = Ok q /\ (In 255%N q -> sd_access_d (sel_bmi2 ctz64) t (id q) = Throw) /\ (~ In 255%N q -> sd_access_d (sel_bmi2 ctz64) t (id q) = Ok q)).
Proof. exact dict_debug_any. Qed.
Print Assumptions C93_assertions.
Example C93_example : exists t, sd_build_d 3 [[97]; [98; 255]; [98]]%N = Ok t /\ sd_lookup_d t [98; 255]%N = Ok (Some 2%N) /\ sd_access (sel_bmi2 ctz64) t 2 = Ok [98; 255]%N /\ sd_access_d (sel_bmi2 ctz64) t 2 = Throw /\ sd_access_d (sel_bmi2 ctz64) t 1 = Ok [98]%N.
Proof. eexists. split; [vm_compute; reflexivity|]. vm_compute. auto 10. Qed.
