(** C147: texts too long for the 32-bit ids of FactorOracle. *)
From Coq Require Import List NArith ZArith Arith Bool Lia.
From Verif Require Import Base Spec4 Spec20 FoModel FoWidthModel FoWidth FoWidth2.
Import ListNotations.
Local Open Scope nat_scope.

Theorem C147_short : forall w steps fuel text o, Forall (fun c => (0 < c < 256)%N) text -> (257 * N.of_nat (length text) < 2 ^ w)%N -> length text + 2 <= steps -> fo_build fuel text = Ok o ->
  exists o' E, fo_build_w w steps fuel text = Ok o' /\ factor_oracle text E /\ forall q, bytes_below 256 q ->
    (fo_accept_w w [] o' q = Ok true <-> exists s, run E 0 q s) /\
    (fo_accept_w w [] o' q = UB <-> exists v c x, q = v ++ c :: x /\ run E 0 v (length text)) /\
    (fo_accept_w w [] o' q = Ok false <-> ~ (exists s, run E 0 q s) /\ ~ exists v c x, q = v ++ c :: x /\ run E 0 v (length text)).
Proof. exact short_oracle. Qed.
Print Assumptions C147_short.
Theorem C147_same : forall w steps fuel text o, Forall (fun c => (0 < c < 256)%N) text -> (257 * N.of_nat (length text) < 2 ^ w)%N -> length text + 2 <= steps -> fo_build fuel text = Ok o ->
  exists o', fo_build_w w steps fuel text = Ok o' /\ length (fw_nx o') = length (fo_next o) /\ forall beyond q, fo_accept_w w beyond o' q = fo_accept beyond o q.
Proof. exact short_same. Qed.
Print Assumptions C147_same.
Theorem C147_endless : forall w steps fuel text o, Forall (fun c => (0 < c)%N) text -> (2 ^ w <= N.of_nat (length text))%N -> fo_build_w w steps fuel text <> Ok o.
Proof. exact long_endless. Qed.
Print Assumptions C147_endless.
Example C147_example : Forall (fun c => (0 < c < 256)%N) [97; 98; 98; 98; 97; 97; 98]%N /\ (257 * N.of_nat (length [97; 98; 98; 98; 97; 97; 98]%N) < 2 ^ 32)%N /\
  exists o, fo_build 300 [97; 98; 98; 98; 97; 97; 98]%N = Ok o /\ length (fo_next o) = 256.
Proof. split; [repeat constructor|]. split; [reflexivity|]. eexists. split; vm_compute; reflexivity. Qed.
Example C147_long : exists text, Forall (fun c => (0 < c)%N) text /\ N.of_nat (length text) = (2 ^ 32)%N.
Proof. exists (repeat 97%N (N.to_nat (2 ^ 32))). split; [|rewrite repeat_length; apply N2Nat.id]. apply Forall_forall. intros x X. apply repeat_spec in X. subst. reflexivity. Qed.
