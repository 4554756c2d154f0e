(** C92: the construction of Samc with assertions on. *)
From Coq Require Import List NArith Arith Bool Lia Sorted.
From Verif Require Import Base Spec5 Spec10 SamcModel SamcDebugModel SamcDebug3.
Import ListNotations.
Local Open Scope nat_scope.

(** [Throw] is a failed assertion *)
Theorem C92_assertions : forall K, K <> [] -> (forall k, In k K -> bytes k) -> forall legacy fuel, (forall k, In k K -> length (c_string k) < fuel) ->
  exists s, sm_build legacy fuel K = Ok s /\ (scattered K -> sm_build_d legacy fuel K = Throw) /\ (~ scattered K -> sm_build_d legacy fuel K = Ok s).
Proof. exact samc_debug. Qed.
Print Assumptions C92_assertions.
(** "b" stands between two keys with "a"; "a\0" after "a"; and keys which may be repeated or out of order but stand together *)
Example C92_fails : sm_build_d false 3 [[97; 99]; [98]; [97]]%N = Throw /\ sm_build_d true 3 [[97]; [97; 0]]%N = Throw.
Proof. split; vm_compute; reflexivity. Qed.
Example C92_passes : exists s, sm_build_d false 3 [[98]; [97; 99]; [97; 99]; [97; 98]]%N = Ok s /\ sm_accept s [97; 98]%N = Ok true.
Proof. eexists. split; vm_compute; reflexivity. Qed.
Example C92_scattered : scattered [[97; 99]; [98]; [97]]%N /\ scattered [[97]; [97; 0]]%N.
Proof.
  split.
  - exists []. split; [constructor|]. left. exists 0, 1, 2. cbn. repeat split; auto. discriminate.
  - exists [97%N]. split; [repeat constructor; discriminate|]. right. split; [reflexivity|]. exists []. right. now left.
Qed.
Theorem C92_sorted : forall K, StronglySorted lex_le K -> (forall k, In k K -> ~ In 0%N k) -> ~ scattered K.
Proof. exact sorted_kept. Qed.
Print Assumptions C92_sorted.
Example C92_sorted_ex : StronglySorted lex_le [[97]; [97]; [97; 98]; [98]]%N.
Proof. repeat match goal with |- StronglySorted _ _ => constructor | |- Forall _ _ => constructor end; (left; reflexivity) || (right; cbn; intuition lia). Qed.
