(** Limits of the compact hash table. *)
From Coq Require Import List NArith ZArith Arith Bool Lia.
From Verif Require Import Base Spec4 FitVectorModel CHTModel.
Import ListNotations.
Local Open Scope nat_scope.

(** a table of which every slot is taken: the search for a free slot never ends *)
Lemma find_null_endless : forall t, (forall i, i < ch_bucket t -> exists w, fv_get (ch_arr t) i = Ok w /\ is_null w = false) ->
  1 <= ch_bucket t -> forall fuel i, i < ch_bucket t -> find_null fuel t i = Fuel.
Proof.
  intros t Hall HB. induction fuel as [|f IH]; intros i Hi; auto. cbn [find_null].
  assert (Hs : cht_succ t i < ch_bucket t) by (unfold cht_succ; destruct (Nat.eqb_spec (i + 1) (ch_bucket t)); lia).
  destruct (Hall _ Hs) as (w & E & Nw). rewrite E. cbn [bind]. rewrite Nw. auto.
Qed.
Lemma full_table : exists t, cht_run 8 40 4 2 8 [MapSet 5 1; MapSet 6 1]%N = Ok t /\ ch_size t = 2 /\ cht_run 8 40 4 2 8 [MapSet 5 1; MapSet 6 1; MapSet 7 1]%N = Fuel /\
  forall fuel i, i < 2 -> find_null fuel t i = Fuel.
Proof.
  eexists. split; [vm_compute; reflexivity|]. split; [reflexivity|]. split; [vm_compute; reflexivity|].
  intros fuel i Hi. apply find_null_endless; cbn [ch_bucket]; auto.
  intros j Hj. destruct j as [|[|j]]; [| |lia]; eexists; split; vm_compute; reflexivity.
Qed.
