(** C91: Samc and SamcDict from any list of keys. *)
From Coq Require Import List NArith Arith Bool Lia Permutation.
From Verif Require Import Base Spec5 Spec10 BitUtilModel SuccinctModel SamcModel SamcSet SamcSet3 SamcSet4.
Import ListNotations.
Local Open Scope nat_scope.

(** order, repetitions and what follows a zero byte make no difference *)
Theorem C91_same : forall legacy fuel K K', (forall k, In k K -> bytes k) -> (forall k, In k K' -> bytes k) -> same_members (map c_string K) (map c_string K') -> sm_build legacy fuel K = sm_build legacy fuel K'.
Proof. exact build_same. Qed.
Print Assumptions C91_same.
Example C91_same_ex : exists s, sm_build false 4 [[98; 97]; [97; 0; 5]; [98; 97; 0]; [97; 99; 100]; [98]]%N = Ok s /\ sm_build false 4 [[97]; [97; 99; 100]; [98]; [98; 97]]%N = Ok s /\ length (sm_storage s) = 10.
Proof. eexists. split; [vm_compute; reflexivity|]. split; vm_compute; reflexivity. Qed.

Theorem C91_accept : forall K, K <> [] -> (forall k, In k K -> bytes k) -> forall legacy fuel, (forall k, In k K -> length (c_string k) < fuel) ->
  exists s, sm_build legacy fuel K = Ok s /\ forall q, bytes q ->
    (In q (map c_string K) -> sm_accept s q = Ok true) /\
    (~ In q (map c_string K) -> (forall k r, longest_key (map c_string K) k -> q <> k ++ 0%N :: r) -> sm_accept s q = Ok false) /\
    (forall k r, longest_key (map c_string K) k -> q = k ++ 0%N :: r -> sm_accept s q = UB).
Proof. exact accept_any. Qed.
Print Assumptions C91_accept.
Example C91_accept_ex : exists s, sm_build true 4 [[98; 97; 97]; [97; 0; 98]; [98]; []; [97]]%N = Ok s /\ sm_accept s [97]%N = Ok true /\ sm_accept s [98; 97; 97]%N = Ok true /\ sm_accept s []%N = Ok true /\ sm_accept s [98; 97]%N = Ok false /\ sm_accept s [98; 0]%N = Ok false /\
  sm_accept s [98; 97; 97; 0]%N = UB.
Proof. eexists. split; [vm_compute; reflexivity|]. vm_compute. auto 10. Qed.

(** the ids number the different C strings; access is the inverse for the first 512 ids *)
Theorem C91_dict : forall K, K <> [] -> (forall k, In k K -> bytes k) -> forall fuel, (forall k, In k K -> length (c_string k) < fuel) -> let D := nodup (list_eq_dec N.eq_dec) (map c_string K) in
  exists t id, sd_build fuel K = Ok t /\ Permutation (map id D) (seq 0 (length D)) /\ forall q, bytes q ->
    (In q D -> sd_lookup t q = Ok (Some (N.of_nat (id q)))) /\
    (~ In q D -> (forall k r, longest_key (map c_string K) k -> q <> k ++ 0%N :: r) -> sd_lookup t q = Ok None) /\
    ((N.of_nat (length (sm_storage (sd_samc t))) < 2 ^ 41)%N -> In q D -> sd_access (sel_bmi2 ctz64) t (id q) = Ok q \/ (512 <= id q /\ sd_access (sel_bmi2 ctz64) t (id q) = UB)).
Proof. exact dict_any. Qed.
Print Assumptions C91_dict.
Example C91_dict_ex : exists t, sd_build 4 [[98; 97]; [97; 0; 98]; [98; 97]; [97]; [98]]%N = Ok t /\ sd_lookup t [98; 97]%N = Ok (Some 2%N) /\ sd_access (sel_bmi2 ctz64) t 2 = Ok [98; 97]%N /\ sd_lookup t [97]%N = Ok (Some 0%N) /\ sd_lookup t [97; 97]%N = Ok None.
Proof. eexists. split; [vm_compute; reflexivity|]. vm_compute. auto 10. Qed.
