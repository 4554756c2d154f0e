(** C59, C60, C67, C68: Samc and SamcDict. *)
From Coq Require Import List NArith Arith Bool Lia Sorted Permutation.
From Verif Require Import Base Spec Spec5 BitUtilModel BitVectorModel SuccinctModel SuccinctProof SuccinctProof2 SamcModel SamcDictProof.
Import ListNotations.
Local Open Scope nat_scope.

(** missing from the full claim: keys with a zero byte, the empty list; a query made of a longest key and a zero byte reads outside the code table *)
Theorem C59_accept_partial : forall legacy fuel K, K <> [] -> StronglySorted lex_lt K -> (forall k, In k K -> Forall (fun c => (0 < c < 256)%N) k) -> (forall k, In k K -> length k < fuel) ->
  exists s, sm_build legacy fuel K = Ok s /\ (forall k, In k K -> sm_accept s k = Ok true) /\
  (forall q, Forall (fun c => (c < 256)%N) q -> ~ In q K -> (forall k r, longest_key K k -> q <> k ++ 0%N :: r) -> sm_accept s q = Ok false) /\
  (forall k r, Forall (fun c => (c < 256)%N) (k ++ 0%N :: r) -> longest_key K k -> sm_accept s (k ++ 0%N :: r) = UB).
Proof. exact samc_accept. Qed.
Print Assumptions C59_accept_partial.
Example C59_example : exists s, sm_build false 4 [[]; [97]; [97; 98]; [97; 255]; [98]; [98; 97; 97]]%N = Ok s /\ sm_accept s [97; 255]%N = Ok true /\ sm_accept s [98; 97]%N = Ok false /\ sm_accept s [97; 0]%N = Ok false /\
  sm_accept s [98; 97; 97; 0]%N = UB.
Proof. eexists. split; [vm_compute; reflexivity|]. vm_compute. auto. Qed.
(** the key "a\0b": the string "a" is accepted, the key itself is looked for outside the code table *)
Theorem C59_zero_byte_refuted : forall legacy, exists K s q, StronglySorted lex_lt K /\ sm_build legacy 4 K = Ok s /\ ~ In q K /\ sm_accept s q = Ok true /\ exists k, In k K /\ sm_accept s k <> Ok true.
Proof.
  intros legacy. exists [[97; 0; 98]]%N. destruct legacy; eexists; exists [97]%N; (split; [repeat constructor|]); (split; [vm_compute; reflexivity|]); (split; [intros [H|[]]; discriminate|]); (split; [vm_compute; reflexivity|]);
    exists [97; 0; 98]%N; (split; [left; reflexivity|]); vm_compute; discriminate.
Qed.
Print Assumptions C59_zero_byte_refuted.
Theorem C59_empty_list_undefined : forall legacy fuel, 0 < fuel -> sm_build legacy fuel [] = UB.
Proof. intros legacy [|fuel] H; [lia|]. reflexivity. Qed.
Print Assumptions C59_empty_list_undefined.
Theorem C59_query_refuted : exists K s q, StronglySorted lex_lt K /\ sm_build false 2 K = Ok s /\ sm_accept s q = UB.
Proof. exists [[97]]%N. eexists. exists [97; 0]%N. split; [repeat constructor|]. split; vm_compute; reflexivity. Qed.
Print Assumptions C59_query_refuted.

(** strings as C strings: no zero bytes in keys and queries *)
Theorem C67_exact : forall legacy fuel K, K <> [] -> StronglySorted lex_lt K -> (forall k, In k K -> Forall (fun c => (0 < c < 256)%N) k) -> (forall k, In k K -> length k < fuel) ->
  exists s, sm_build legacy fuel K = Ok s /\ forall q, Forall (fun c => (0 < c < 256)%N) q -> exists b, sm_accept s q = Ok b /\ (b = true <-> In q K).
Proof.
  intros legacy fuel K HN HS HB HF. destruct (samc_accept legacy fuel K HN HS HB HF) as (s & E & A & R & _). exists s. split; auto. intros q Q.
  destruct (in_dec (list_eq_dec N.eq_dec) q K) as [I|I]; [exists true; split; [auto|tauto]|]. exists false. split; [|split; [discriminate|contradiction]]. apply R; auto.
  - eapply Forall_impl; [|exact Q]. cbv beta. intros. lia.
  - intros k r _ E'. rewrite E' in Q. apply Forall_app in Q. destruct Q as [_ Q]. inversion Q. lia.
Qed.
Print Assumptions C67_exact.
Example C67_example : exists s, sm_build true 4 [[97]; [97; 98; 255]; [98]]%N = Ok s /\ sm_accept s [97; 98; 255]%N = Ok true /\ sm_accept s [97; 98]%N = Ok false /\ sm_accept s [255; 255]%N = Ok false.
Proof. eexists. split; [vm_compute; reflexivity|]. vm_compute. auto. Qed.

(** the select of BMI2 targets; missing: keys with a zero byte, the empty list, queries as in C59, and access for the ids from 512 on, where select may be undefined *)
Theorem C60_dict_bmi2_partial : forall fuel K, K <> [] -> StronglySorted lex_lt K -> (forall k, In k K -> Forall (fun c => (0 < c < 256)%N) k) -> (forall k, In k K -> length k < fuel) ->
  exists t id, sd_build fuel K = Ok t /\ Permutation (map id K) (seq 0 (length K)) /\ (forall k, In k K -> sd_lookup t k = Ok (Some (N.of_nat (id k)))) /\
  (forall q, Forall (fun c => (c < 256)%N) q -> ~ In q K -> (forall k r, longest_key K k -> q <> k ++ 0%N :: r) -> sd_lookup t q = Ok None) /\
  ((N.of_nat (length (sm_storage (sd_samc t))) < 2 ^ 41)%N ->
     forall k, In k K -> sd_access (sel_bmi2 ctz64) t (id k) = Ok k \/ (512 <= id k /\ sd_access (sel_bmi2 ctz64) t (id k) = UB)).
Proof.
  intros fuel K HN HS HB HF. destruct (samc_dict_ok fuel K HN HS HB HF) as (t & id & A1 & A2 & A3 & A4 & A5). exists t, id. split; auto. split; auto. split; auto. split; auto.
  intros Sz. apply (A5 Sz). intros x _ X. apply selw_bmi2. exact X.
Qed.
Print Assumptions C60_dict_bmi2_partial.
(** the portable select, for leaves without the patterns of C04 *)
Theorem C60_dict_portable_partial : forall fuel K, K <> [] -> StronglySorted lex_lt K -> (forall k, In k K -> Forall (fun c => (0 < c < 256)%N) k) -> (forall k, In k K -> length k < fuel) ->
  exists t id, sd_build fuel K = Ok t /\ Permutation (map id K) (seq 0 (length K)) /\ (forall k, In k K -> sd_lookup t k = Ok (Some (N.of_nat (id k)))) /\
  ((N.of_nat (length (sm_storage (sd_samc t))) < 2 ^ 41)%N ->
     (forall x, In x (bv_words (sb_bits (sd_leaves t))) -> N.land x 0x0F0F0F0F <> 0x0F0F0F0F%N /\ N.land x 0xF0F0F0F0 <> 0xF0F0F0F0%N) ->
     forall k, In k K -> sd_access sel t (id k) = Ok k \/ (512 <= id k /\ sd_access sel t (id k) = UB)).
Proof.
  intros fuel K HN HS HB HF. destruct (samc_dict_ok fuel K HN HS HB HF) as (t & id & A1 & A2 & A3 & A4 & A5). exists t, id. split; auto. split; auto. split; auto.
  intros Sz Hw. apply (A5 Sz). intros x I X. destruct (Hw x I). apply selw_portable; auto.
Qed.
Print Assumptions C60_dict_portable_partial.
Example C60_example : exists t, sd_build 4 [[]; [97]; [97; 98]; [97; 255]; [98]; [98; 97; 97]]%N = Ok t /\ sd_lookup t [97; 255]%N = Ok (Some 4%N) /\ sd_access (sel_bmi2 ctz64) t 4 = Ok [97; 255]%N /\ sd_access sel t 5 = Ok [98; 97; 97]%N /\
  sd_access sel t 0 = Ok [] /\ sd_lookup t [98; 97]%N = Ok None /\ forall x, In x (bv_words (sb_bits (sd_leaves t))) -> N.land x 0x0F0F0F0F <> 0x0F0F0F0F%N /\ N.land x 0xF0F0F0F0 <> 0xF0F0F0F0%N.
Proof.
  eexists. split; [vm_compute; reflexivity|]. split; [vm_compute; reflexivity|]. split; [vm_compute; reflexivity|]. split; [vm_compute; reflexivity|]. split; [vm_compute; reflexivity|]. split; [vm_compute; reflexivity|].
  intros x [<-|[]]. split; vm_compute; discriminate.
Qed.
(** 513 keys: the last id has no key *)
Theorem C60_access_refuted : exists K t, length K = 513 /\ StronglySorted lex_lt K /\ (forall k, In k K -> Forall (fun c => (0 < c < 256)%N) k) /\ sd_build 3 K = Ok t /\ sd_access (sel_bmi2 ctz64) t 512 = UB.
Proof.
  set (K := flat_map (fun a => map (fun b => [N.of_nat a; N.of_nat b]) (seq 1 3)) (seq 1 171)).
  assert (X : match sd_build 3 K with Ok t => match sd_access (sel_bmi2 ctz64) t 512 with UB => true | _ => false end | _ => false end = true) by (vm_compute; reflexivity).
  exists K. destruct (sd_build 3 K) as [t| | |]; try discriminate X. exists t. split; [reflexivity|]. split; [apply sortedb_ok; vm_compute; reflexivity|]. split.
  { intros k I. apply in_flat_map in I. destruct I as (a & I1 & I2). apply in_map_iff in I2. destruct I2 as (b & <- & I2). apply in_seq in I1. apply in_seq in I2. repeat constructor; lia. }
  split; [reflexivity|]. destruct (sd_access (sel_bmi2 ctz64) t 512); try discriminate X. reflexivity.
Qed.
Print Assumptions C60_access_refuted.

(** at most 512 keys, no zero bytes, select of BMI2 targets *)
Theorem C68_inverse : forall fuel K, K <> [] -> length K <= 512 -> StronglySorted lex_lt K -> (forall k, In k K -> Forall (fun c => (0 < c < 256)%N) k) -> (forall k, In k K -> length k < fuel) ->
  exists t id, sd_build fuel K = Ok t /\ Permutation (map id K) (seq 0 (length K)) /\ (forall k, In k K -> sd_lookup t k = Ok (Some (N.of_nat (id k)))) /\
  (forall q, Forall (fun c => (0 < c < 256)%N) q -> ~ In q K -> sd_lookup t q = Ok None) /\
  ((N.of_nat (length (sm_storage (sd_samc t))) < 2 ^ 41)%N -> forall k, In k K -> sd_access (sel_bmi2 ctz64) t (id k) = Ok k).
Proof.
  intros fuel K HN HL HS HB HF. destruct (C60_dict_bmi2_partial fuel K HN HS HB HF) as (t & id & A1 & A2 & A3 & A4 & A5). exists t, id. split; auto. split; auto. split; auto. split.
  - intros q Q I. apply A4; auto.
    + eapply Forall_impl; [|exact Q]. cbv beta. intros. lia.
    + intros k r _ E'. rewrite E' in Q. apply Forall_app in Q. destruct Q as [_ Q]. inversion Q. lia.
  - intros Sz k I. destruct (A5 Sz k I) as [X|[X _]]; auto. exfalso. assert (Y : In (id k) (seq 0 (length K))) by (apply (Permutation_in _ A2); apply in_map; exact I). apply in_seq in Y. lia.
Qed.
Print Assumptions C68_inverse.
Example C68_example : exists t, sd_build 3 [[97]; [98]; [98; 97]]%N = Ok t /\ sd_lookup t [98; 97]%N = Ok (Some 2%N) /\ sd_access (sel_bmi2 ctz64) t 2 = Ok [98; 97]%N /\ sd_lookup t [97; 97]%N = Ok None.
Proof. eexists. split; [vm_compute; reflexivity|]. vm_compute. auto. Qed.
