(** A CHT of which every slot is taken: lookups and overwriting still work, a set of a new key never ends *)
From Coq Require Import List NArith ZArith Arith Bool Lia.
From Verif Require Import Base BitUtilModel FitVectorModel HashModel CHTModel CHTRing CHTShift CHTWord CHTProof CHTInsert CHTMain CHTLimits.
Import ListNotations.
Local Open Scope nat_scope.

Section Full.
Variables (kb VW L : nat).
Hypothesis Hkb : kb <= 63.
Lemma full_used : forall t l vs H, base kb VW L t l vs H -> ch_used t = ch_bucket t -> forall z, fU l z = true.
Proof using.
  clear Hkb. intros t l vs H G Fu z. pose proof (g_ring _ _ _ _ _ _ _ G) as R. pose proof (a_B _ _ _ _ (g_a _ _ _ _ _ _ _ G)) as HB. set (B := ch_bucket t) in *.
  destruct (fU l z) eqn:Uz; auto. exfalso.
  assert (Uz' : fU l (z mod Z.of_nat B) = false). { rewrite <- Uz. rewrite (Z.div_mod z (Z.of_nat B)) at 2 by lia. rewrite Z.add_comm, Z.mul_comm. symmetry. apply (perU _ _ _ _ _ _ R). }
  pose proof (Z.mod_pos_bound z (Z.of_nat B) ltac:(lia)) as Mb. rewrite (g_used _ _ _ _ _ _ _ G) in Fu. fold B in Fu.
  rewrite (cnt_app (fU l) (z mod Z.of_nat B) (Z.of_nat B) 0) in Fu by lia. rewrite (cnt_cons (fU l) (z mod Z.of_nat B)) in Fu by lia. rewrite Uz' in Fu.
  pose proof (cnt_le (fU l) 0 (z mod Z.of_nat B) ltac:(lia)). pose proof (cnt_le (fU l) (z mod Z.of_nat B + 1) (Z.of_nat B) ltac:(lia)). lia.
Qed.
Lemma full_endless : forall t l vs H, base kb VW L t l vs H -> ch_used t = ch_bucket t -> forall fuel i, i < ch_bucket t -> find_null fuel t i = Fuel.
Proof using.
  intros t l vs H G Fu. pose proof (g_a _ _ _ _ _ _ _ G) as A. pose proof (a_B _ _ _ _ A) as HB. apply find_null_endless; auto.
  intros i Hi. exists (wd l (Z.of_nat i)). rewrite <- (get_arr _ _ _ _ A). rewrite idx_of_nat by auto. split; auto.
  rewrite null_eq by apply (g_del _ _ _ _ _ _ _ G). now rewrite (full_used t l vs H G Fu).
Qed.
Lemma insert_full : forall t l vs H k v, base kb VW L t l vs H -> ch_used t = ch_bucket t -> (k < 2 ^ N.of_nat kb)%N -> (forall v0, ~ holds kb l vs H k v0) ->
  cht_insert t k v = Fuel.
Proof using Hkb.
  intros t l vs H k v G Fu Hk No. pose proof (g_a _ _ _ _ _ _ _ G) as A. pose proof (g_ring _ _ _ _ _ _ _ G) as R. pose proof (a_B _ _ _ _ A) as HB.
  unfold cht_insert. rewrite (locate_ok kb VW L Hkb t l vs H G k Hk). cbn [bind]. set (b := home_of t (hashf kb k)). set (q := quo_of t (hashf kb k)).
  destruct (search_ok VW t l vs A H R b q) as [(z & Uz & Hz & Qz & Ob & i & Ei & Ef)|(Fr & p & Sp & Hp & i & Ei & Ef)].
  - exfalso. apply (No (wd vs z)). exists z. split; auto. split; auto. apply (hk_eq kb VW L t l vs H G). split; auto. rewrite Hz. apply Z.mod_small. exact (home_bound kb VW L t l vs H G (hashf kb k)).
  - rewrite Ei. cbn [bind]. rewrite (get_arr _ _ _ _ A b). cbn [bind]. rewrite is_occupied_eq. fold (fO l b). rewrite Ef. cbn [bind]. unfold cht_insert_at.
    rewrite (get_arr _ _ _ _ A p). cbn [bind]. rewrite null_eq by apply (g_del _ _ _ _ _ _ _ G). rewrite (full_used t l vs H G Fu). cbn [negb].
    rewrite (full_endless t l vs H G Fu); [reflexivity|]. apply idx_lt, HB.
Qed.
End Full.
