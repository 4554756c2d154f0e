(** How long the searches for a base take (C158). *)
From Coq Require Import List NArith ZArith Arith Bool Lia.
From Verif Require Import Base FoModel FoDebugModel FoProof FoDebug.
Import ListNotations.
Local Open Scope nat_scope.

Theorem search_enough : forall fuel text o, Forall (fun c => (0 < c < 256)%N) text -> fo_build fuel text = Ok o -> fo_build (512 * length text + 257) text = Ok o.
Proof.
  intros fuel text o Hb E. assert (Hn : text <> []) by (intros ->; rewrite build_empty in E; discriminate).
  destruct (build_lasts text (nonzero_nth _ Hb) (512 * length text + 257)) as [(o' & _ & E2 & _)|(_ & E2)]; [destruct text; [congruence|cbn [length]; lia]|lia| |rewrite E2 in E; discriminate].
  destruct (Nat.le_ge_cases fuel (512 * length text + 257)) as [L|L]; [eapply build_mono; eauto|]. pose proof (build_mono _ _ _ _ L E2). congruence.
Qed.
Theorem search_decides : forall text, text <> [] -> Forall (fun c => (0 < c < 256)%N) text ->
  (exists o, forall fuel, 512 * length text + 257 <= fuel -> fo_build fuel text = Ok o) \/ forall fuel, fo_build fuel text = Fuel.
Proof.
  intros text Hn Hb. destruct (build_lasts text (nonzero_nth _ Hb) (512 * length text + 257)) as [(o & _ & E2 & _)|(_ & E2)]; [destruct text; [congruence|cbn [length]; lia]|lia|left|now right].
  exists o. intros fuel L. eapply build_mono; eauto.
Qed.
