(** C104: select in the portable build, every case. *)
From Coq Require Import List NArith ZArith Arith Bool Lia Sorted Permutation.
From Verif Require Import Base Spec Spec5 Spec10 Spec14 BitUtilModel BitVectorModel SuccinctModel SuccinctProof3 SamcModel SelExact SelDict.
Import ListNotations.
Local Open Scope nat_scope.

(** popcnt32 applied to any word, which is truncated to its lower half *)
Theorem C104_popcnt32 : forall x, popcnt32 x = N.of_nat (ones_below 32 x - lost_ones x).
Proof. exact popcnt32_low. Qed.
Print Assumptions C104_popcnt32.
Example C104_popcnt32_ex : popcnt32 0x0F0F0F0F = 1%N /\ popcnt32 0xF0F0F0F0 = 0%N /\ popcnt32 0xFFFFFFFF = 1%N /\ popcnt32 0x7FFFFFFF = 0%N /\ popcnt32 0xF0F2F1F3 = 4%N /\ lost_ones 0xF0F2F1F3 = 16.
Proof. vm_compute. auto 10. Qed.

(** sel: the lower half if the index is at most the count made there; otherwise the upper half; past its last one either 64 or
    a read past the table *)
Theorem C104_sel : forall x i, (1 <= i)%N ->
  let c := N.of_nat (ones_below 32 x - lost_ones x) in
  let h := N.shiftr x 32 in
  if (i <=? c)%N then exists p, p < 32 /\ sel x i = Ok (N.of_nat p + 1)%N /\ N.testbit x (N.of_nat p) = true /\ (N.of_nat (ones_below p x) + 1 = i)%N
  else if (i - c <=? N.of_nat (ones_below 32 h))%N then
    exists p, 32 <= p < 64 /\ sel x i = Ok (N.of_nat p + 1)%N /\ N.testbit x (N.of_nat p) = true /\ (N.of_nat (ones_below p x) + 1 = i + N.of_nat (lost_ones x))%N
  else sel x i = if (i - c - N.of_nat (ones_below 24 h) <=? 8)%N then Ok 64%N else UB.
Proof. exact sel_exact. Qed.
Print Assumptions C104_sel.
Theorem C104_sel_zero : forall x, sel x 0 = Ok 0%N.
Proof. exact sel_zero. Qed.
Print Assumptions C104_sel_zero.
Example C104_sel_ex : sel 0x0F0F0F0F 1 = Ok 1%N /\ sel 0x0F0F0F0F 2 = Ok 64%N /\ sel 0x0F0F0F0F 10 = UB /\ sel 0x30000000F0F0F0F 2 = Ok 57%N /\ sel 0xFF 8 = Ok 8%N /\ sel 0xF000000000000001 3 = Ok 62%N.
Proof. vm_compute. auto 10. Qed.

(** SuccinctBitVector::select *)
Theorem C104_select : forall v l, bv_reach v l -> (N.of_nat (length l) < 2 ^ 41)%N ->
  exists s, sb_build true v = Ok s /\ forall k p, is_kth_one l k p -> k / 512 <= ones_before_last_block l / 512 ->
    let w := p / 64 in let x := nth w (bv_words v) 0%N in
    let i := k + 1 - count_true (firstn (64 * w) l) in
    let c := ones_below 32 x - lost_ones x in
    let h := N.shiftr x 32 in
    1 <= i <= ones_below 64 x /\
    if (lost_ones x =? 0) || (i <=? c) then sb_select sel s k = Ok (N.of_nat p)
    else if i - c <=? ones_below 32 h then
      exists q, 64 * w + 32 <= q < 64 * w + 64 /\ sb_select sel s k = Ok (N.of_nat q) /\
        N.testbit x (N.of_nat (q - 64 * w)) = true /\ ones_below (q - 64 * w) x + 1 = i + lost_ones x
    else sb_select sel s k = if i - c - ones_below 24 h <=? 8 then Ok (N.of_nat (64 * w + 63)) else UB.
Proof. exact select_portable. Qed.
Print Assumptions C104_select.
(** right exactly when the word loses no ones or the one asked for comes before the loss *)
Theorem C104_select_iff : forall v l, bv_reach v l -> (N.of_nat (length l) < 2 ^ 41)%N ->
  exists s, sb_build true v = Ok s /\ forall k p, is_kth_one l k p -> k / 512 <= ones_before_last_block l / 512 ->
    let x := nth (p / 64) (bv_words v) 0%N in
    (sb_select sel s k = Ok (N.of_nat p) <-> lost_ones x = 0 \/ k + 1 + lost_ones x <= count_true (firstn (64 * (p / 64)) l) + ones_below 32 x).
Proof. exact select_portable_iff. Qed.
Print Assumptions C104_select_iff.
(** 40 ones: 31 of the first 32 are missed *)
Example C104_select_ex : exists v, bv_reach v (repeat true 40) /\ (do s <- sb_build true v; sb_select sel s 0) = Ok 0%N /\ (do s <- sb_build true v; sb_select sel s 1) = Ok 32%N /\ (do s <- sb_build true v; sb_select sel s 8) = Ok 39%N /\
  (do s <- sb_build true v; sb_select sel s 9) = Ok 63%N /\ (do s <- sb_build true v; sb_select sel s 30) = UB /\ nth 0 (bv_words v) 0%N = 0xFFFFFFFFFF%N /\ lost_ones 0xFFFFFFFFFF = 31.
Proof.
  eexists. split.
  - exists (bv_filled 40 true), (repeat true 40), []. split; [apply StartFilled|]. split; vm_compute; reflexivity.
  - vm_compute. auto 10.
Qed.

(** SamcDict of at most 15 different C strings, from any list of keys *)
Theorem C104_dict : forall K, K <> [] -> (forall k, In k K -> bytes k) -> forall fuel, (forall k, In k K -> length (c_string k) < fuel) ->
  let D := nodup (list_eq_dec N.eq_dec) (map c_string K) in length D <= 15 ->
  exists t id, sd_build fuel K = Ok t /\ Permutation (map id D) (seq 0 (length D)) /\ forall q, bytes q ->
    (In q D -> sd_lookup t q = Ok (Some (N.of_nat (id q)))) /\
    (~ In q D -> (forall k r, longest_key (map c_string K) k -> q <> k ++ 0%N :: r) -> sd_lookup t q = Ok None) /\
    ((N.of_nat (length (sm_storage (sd_samc t))) < 2 ^ 41)%N -> In q D -> sd_access sel t (id q) = Ok q).
Proof. exact dict_any_few. Qed.
Print Assumptions C104_dict.
Example C104_dict_ex : exists t, sd_build 4 [[98; 97]; [97; 0; 98]; [98; 97]; [97]; [98]]%N = Ok t /\ sd_lookup t [98; 97]%N = Ok (Some 2%N) /\ sd_access sel t 2 = Ok [98; 97]%N /\ sd_access sel t 0 = Ok [97]%N.
Proof. eexists. split; [vm_compute; reflexivity|]. vm_compute. auto 10. Qed.
(** with 50 keys of one letter the id of one key leads to another key, the id of a third is undefined *)
Theorem C104_dict_wrong : exists K t, length K = 50 /\ StronglySorted lex_lt K /\ (forall k, In k K -> Forall (fun c => (0 < c < 256)%N) k) /\ sd_build 3 K = Ok t /\
  sd_lookup t [15]%N = Ok (Some 14%N) /\ sd_access sel t 14 = Ok [46]%N /\ sd_lookup t [20]%N = Ok (Some 19%N) /\ sd_access sel t 19 = UB.
Proof.
  set (K := map (fun a => [N.of_nat a]) (seq 1 50)). exists K.
  assert (X : match sd_build 3 K with Ok t => match sd_lookup t [15]%N, sd_access sel t 14, sd_lookup t [20]%N, sd_access sel t 19 with Ok (Some 14%N), Ok [46]%N, Ok (Some 19%N), UB => true | _, _, _, _ => false end | _ => false end = true) by (vm_compute; reflexivity).
  destruct (sd_build 3 K) as [t| | |]; try discriminate X. exists t. split; [reflexivity|]. split; [apply SamcDictProof.sortedb_ok; vm_compute; reflexivity|]. split.
  { intros k I. apply in_map_iff in I. destruct I as (a & <- & I). apply in_seq in I. repeat constructor; lia. }
  split; [reflexivity|]. revert X. repeat match goal with |- context [match ?e with _ => _ end] => destruct e; try discriminate end; auto.
Qed.
Print Assumptions C104_dict_wrong.
