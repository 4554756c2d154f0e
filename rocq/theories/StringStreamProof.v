(** Proofs about StringStreamModel.v *)
From Coq Require Import List NArith ZArith Lia Bool Arith.
From Verif Require Import Base Spec BitUtilModel BitUtilProof BitVectorModel SuccinctModel FitVectorModel FitVectorProof StreamModel StreamProof SuffixModel SamcModel StringStreamModel.
Import ListNotations.
Local Open Scope nat_scope.

Lemma rt_samc : forall cw s, samc_fits cw s -> rt (samc_read cw) (samc_write cw s) s.
Proof.
  intros cw [st co hd] (A & B & C & D & E & F). cbn [sm_storage sm_codes sm_head] in *. unfold samc_read, samc_write. cbn [sm_storage sm_codes sm_head].
  apply rt_bind with st. { apply rt_vec; auto. eapply Forall_impl; [|exact B]. intros x Hx. apply rt_val. exact Hx. }
  apply rt_bind with co.
  { apply rt_vec; auto. eapply Forall_impl; [|exact D]. intros row (L & Hr). unfold row_read, row_write. rewrite <- L. apply rt_prep. eapply Forall_impl; [|exact Hr]. intros x Hx. now apply rt_val. }
  replace hd with (map N.to_nat (map N.of_nat hd)) at 2. 2:{ rewrite map_map. erewrite map_ext; [apply map_id|]. intros. apply Nat2N.id. }
  apply (rt_last _ _ _ (fun h => {| sm_storage := st; sm_codes := co; sm_head := map N.to_nat h |}) _ (map N.of_nat hd)).
  replace (write_vec (fun h => write_val cw (N.of_nat h)) hd) with (write_vec (write_val cw) (map N.of_nat hd)). 2:{ unfold write_vec. now rewrite map_length, map_map. }
  apply rt_vec; [now rewrite map_length|]. apply Forall_map. eapply Forall_impl; [|exact F]. intros x Hx. now apply rt_val.
Qed.
Lemma rt_dict : forall cw t target, samc_fits cw (sd_samc t) -> sb_fits (sd_leaves t) -> rt (dict_read cw target) (dict_write cw t) t.
Proof.
  intros cw [s l] target A B. cbn [sd_samc sd_leaves] in *. unfold dict_read, dict_write. cbn [sd_samc sd_leaves].
  apply rt_bind with s; [now apply rt_samc|]. apply (rt_last _ _ _ (fun l => {| sd_samc := s; sd_leaves := l |}) _ l). apply rt_sb; auto. discriminate.
Qed.
Lemma len_row : forall cw row, length (row_write cw row) = cw * length row.
Proof. intros cw row. unfold row_write. induction row; cbn [map concat length]; [lia|]. rewrite app_length, IHrow. unfold write_val. rewrite le_length. lia. Qed.
Lemma len_rows : forall cw l, Forall (fun row : list N => length row = 256) l -> length (concat (map (row_write cw) l)) = 256 * cw * length l.
Proof. intros cw. induction 1; cbn [map concat length]; [lia|]. rewrite app_length, IHForall, len_row, H. lia. Qed.
Lemma samc_size_bytes : forall cw s, Forall (fun row => length row = 256) (sm_codes s) -> samc_size_in_bytes cw s = length (samc_write cw s).
Proof.
  intros cw s F. unfold samc_size_in_bytes, samc_write, write_vec, size_vec. rewrite !app_length, !len_size, len_rows by auto.
  rewrite (len_concat _ _ 1), (len_concat _ _ cw) by (intros; apply le_length). lia.
Qed.
Lemma dict_size_bytes : forall cw t, Forall (fun row => length row = 256) (sm_codes (sd_samc t)) -> dict_size_in_bytes cw t = length (dict_write cw t).
Proof. intros cw t F. unfold dict_size_in_bytes, dict_write. now rewrite app_length, samc_size_bytes, sb_size_bytes. Qed.

Lemma rep_fits : forall v l g, fv_rep v l g -> (N.of_nat (length l) < 2 ^ 32)%N -> fv_fits v /\ fv_width v < 64.
Proof.
  intros v l g (Hw & Hz & Hl & Hs & _) H. split; [|lia]. unfold fv_fits, size_fits. rewrite Hl, Hz. split; [lia|]. split; [lia|]. split; [|exact Hs].
  unfold fv_word_size. destruct ((length l =? 0) || (fv_width v =? 0)); [reflexivity|].
  assert (X : length l * fv_width v <= length l * 63) by (apply Nat.mul_le_mono_l; lia).
  assert (Y : (length l * fv_width v - 1) / 64 <= length l) by (apply Nat.div_le_upper_bound; lia). lia.
Qed.
Lemma rt_sufarr : forall s a, size_fits (length s) -> fv_fits (fst a) -> fv_width (fst a) < 64 -> fv_fits (snd a) -> fv_width (snd a) < 64 -> rt sufarr_read (sufarr_write s a) (s, a).
Proof.
  intros s [a l] H A A' B B'. cbn [fst snd] in *. unfold sufarr_read, sufarr_write. cbn [fst snd].
  apply rt_bind with s; [now apply rt_string|]. apply rt_bind with a; [now apply rt_fv|]. apply (rt_last _ _ _ (fun l => (s, (a, l))) _ l). now apply rt_fv.
Qed.
Lemma suffix_from_ok : forall s i, (N.of_nat (length s) < 2 ^ 64)%N -> suffix_from s i = if length s <? i then Throw else Ok (skipn i s).
Proof.
  intros s i H. unfold suffix_from, suffix_sub. destruct (Nat.ltb_spec (length s) i); [reflexivity|]. f_equal. unfold wsub. apply firstn_all2. rewrite skipn_length.
  replace (N.of_nat (length s) + 2 ^ 64 - N.of_nat i)%N with (N.of_nat (length s - i) + 1 * 2 ^ 64)%N by lia.
  rewrite N.mod_add by lia. rewrite N.mod_small by lia. lia.
Qed.
