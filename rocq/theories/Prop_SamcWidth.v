(** C82: Samc with a code_type of one, two, four or eight bytes. *)
From Coq Require Import List NArith Arith Bool Lia Sorted.
From Verif Require Import Base Spec Spec5 SamcModel SamcWidthModel StreamModel StringStreamModel SamcDictProof SamcWidthProof2.
Import ListNotations.
Local Open Scope nat_scope.

(** construction is defined exactly if the storage has fewer elements than the code_type has values; then nothing is lost *)
Theorem C82_samc : forall cw legacy fuel K, In cw [1; 2; 4; 8] -> K <> [] -> StronglySorted lex_lt K -> (forall k, In k K -> Forall (fun c => (0 < c < 256)%N) k) -> (forall k, In k K -> length k < fuel) ->
  exists s, sm_build legacy fuel K = Ok s /\ ((N.of_nat (length (sm_storage s)) < 2 ^ 63)%N ->
    ((exists s', sm_build_w cw legacy fuel K = Ok s') <-> (N.of_nat (length (sm_storage s)) < 2 ^ N.of_nat (8 * cw))%N) /\
    forall s', sm_build_w cw legacy fuel K = Ok s' -> s' = s /\ (forall q, Forall (fun c => (0 < c < 256)%N) q -> exists b, sm_accept s' q = Ok b /\ (b = true <-> In q K)) /\
      (forall rest, samc_read cw (samc_write cw s' ++ rest) = Ok (s', rest)) /\
      (N.of_nat (length K) < 2 ^ N.of_nat (8 * cw))%N /\ forall k, In k K -> (N.of_nat (length k + 1) < 2 ^ N.of_nat (8 * cw))%N).
Proof. exact width_accept. Qed.
Print Assumptions C82_samc.
Example C82_samc_ex : exists s, sm_build_w 1 false 3 [[97]; [98]; [98; 255]]%N = Ok s /\ length (sm_storage s) = 7 /\ sm_accept s [98; 255]%N = Ok true /\ sm_accept s [98; 97]%N = Ok false.
Proof. eexists. split; [vm_compute; reflexivity|]. vm_compute. auto. Qed.

Theorem C82_dict : forall cw fuel K t, In cw [1; 2; 4; 8] -> K <> [] -> StronglySorted lex_lt K -> (forall k, In k K -> Forall (fun c => (0 < c < 256)%N) k) -> (forall k, In k K -> length k < fuel) ->
  sd_build fuel K = Ok t -> (N.of_nat (length (sm_storage (sd_samc t))) < 2 ^ 63)%N ->
  forall t', sd_build_w cw fuel K = Ok t' <-> t' = t /\ (N.of_nat (length (sm_storage (sd_samc t))) < 2 ^ N.of_nat (8 * cw))%N.
Proof. exact width_dict. Qed.
Print Assumptions C82_dict.
Example C82_dict_ex : exists t, sd_build_w 2 3 [[97]; [98; 97]]%N = Ok t /\ sd_lookup t [98; 97]%N = Ok (Some 1%N).
Proof. eexists. split; vm_compute; reflexivity. Qed.

(** one key of 254 letters has a storage of 256 elements: with uint8_t the construction is undefined, with one letter less it is not *)
Theorem C82_uint8_sharp : sm_build_w 1 false 255 [repeat 97%N 254] = UB /\ exists s, sm_build_w 1 false 255 [repeat 97%N 253] = Ok s /\ length (sm_storage s) = 255 /\ sm_accept s (repeat 97%N 253) = Ok true.
Proof.
  split; [vm_compute; reflexivity|].
  assert (X : match sm_build_w 1 false 255 [repeat 97%N 253] with Ok s => (length (sm_storage s) =? 255) && match sm_accept s (repeat 97%N 253) with Ok b => b | _ => false end | _ => false end = true) by (vm_compute; reflexivity).
  destruct (sm_build_w 1 false 255 [repeat 97%N 253]) as [s| | |]; try discriminate X. exists s. apply andb_true_iff in X. destruct X as [X1 X2]. apply Nat.eqb_eq in X1. split; auto. split; auto. destruct (sm_accept s (repeat 97%N 253)) as [b| | |]; try discriminate X2. subst b. reflexivity.
Qed.
Print Assumptions C82_uint8_sharp.
