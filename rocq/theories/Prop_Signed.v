(** C120: sequences of a signed type. *)
From Coq Require Import List NArith ZArith Arith Bool Lia.
From Verif Require Import Base Spec Spec2 Spec22 FitVectorModel WaveletModel DacModel CDRWModel SignedModel SignedProof.
Import ListNotations.
Local Open Scope nat_scope.

(** FitVector: undefined exactly if all values are negative; else every element reads the low bits of its value, as many as the greatest value needs *)
Theorem C120_fitvector : forall l m, Forall signed_value l -> greatest m l ->
  ((m < 0)%Z -> fv_of_signed l = UB) /\
  ((0 <= m)%Z -> exists v, fv_of_signed l = Ok v /\ fv_size v = length l /\ fv_width v = bits_needed (Z.to_N m) /\
     forall i, fv_at v i = match nth_error l i with Some x => Ok (low_bits (bits_needed (Z.to_N m)) x) | None => Throw end).
Proof. exact fv_signed. Qed.
Print Assumptions C120_fitvector.
(** -3 among values of three bits reads 5, -2^63 reads 0 *)
Example C120_fitvector_ex : let l := [4; -3; 0; -1; - 2 ^ 63; 5]%Z in Forall signed_value l /\ greatest 5 l /\
  (do v <- fv_of_signed l; mapM (fv_at v) (seq 0 6)) = Ok [4; 5; 0; 7; 0; 5]%N /\ fv_of_signed [-3; -1]%Z = UB.
Proof.
  cbv zeta. split; [repeat constructor; discriminate|]. split; [split; [simpl; tauto|simpl; intros x H; repeat (destruct H as [<-|H]; [discriminate|]); destruct H]|]. split; vm_compute; reflexivity.
Qed.

(** WaveletTree: undefined exactly if all values are negative or one has more than 31 bits; else it holds the low bits *)
Theorem C120_wavelet : forall l m, Forall signed_value l -> greatest m l -> (N.of_nat (length l) < 2 ^ 63)%N ->
  ((m < 0 \/ 2 ^ 31 <= m)%Z -> wt_make_signed l = UB) /\
  ((0 <= m < 2 ^ 31)%Z -> let low := low_bits (bits_needed (Z.to_N m)) in exists t, wt_make_signed l = Ok t /\ wt_size t = Ok (length l) /\
    (forall i, i < length l -> wt_get t i = Ok (low (nth i l 0%Z) mod 256)%N) /\
    (forall i, i < length l -> let n := count_if (fun x => (low x =? low (nth i l 0%Z))%N) (firstn i l) in wt_rank t i = Ok n /\ wt_access_and_rank t i = Ok ((low (nth i l 0%Z) mod 256)%N, n)) /\
    (forall c i, i < length l -> (c < 256)%N -> c = low (nth i l 0%Z) -> wt_rank_c t c i = Ok (count_if (fun x => (low x =? c)%N) (firstn i l)))).
Proof. exact wt_signed. Qed.
Print Assumptions C120_wavelet.
(** rank of any symbol up to any position, with the case of C73 where it reads outside a node *)
Theorem C120_wavelet_symbol : forall l m c i, Forall signed_value l -> greatest m l -> (0 <= m < 2 ^ 31)%Z -> (N.of_nat (length l) < 2 ^ 63)%N -> i <= length l -> (c < 256)%N ->
  let h := bits_needed (Z.to_N m) in let low := map (low_bits h) in let c' := (c mod 2 ^ N.of_nat h)%N in
  exists t, wt_make_signed l = Ok t /\
  ((exists k, 1 <= k <= h /\ sharing k c' (low (firstn i l)) = sharing k c' (low l) /\ sharing k c' (low l) mod 64 = 0 /\ sharing k c' (low l) <> 0) -> wt_rank_c t c i = UB) /\
  (~ (exists k, 1 <= k <= h /\ sharing k c' (low (firstn i l)) = sharing k c' (low l) /\ sharing k c' (low l) mod 64 = 0 /\ sharing k c' (low l) <> 0) ->
   wt_rank_c t c i = Ok (count_if (fun x => (low_bits h x =? c')%N) (firstn i l))).
Proof. exact wt_signed_symbol. Qed.
Print Assumptions C120_wavelet_symbol.
(** the chars o n a 0xEF v e: as a char 0xEF is -17; it reads as "o", its rank counts the o before it, and it is counted as an o *)
Example C120_wavelet_ex : let l := [111; 110; 97; -17; 118; 101]%Z in Forall signed_value l /\ greatest 118 l /\
  (do t <- wt_make_signed l; mapM (wt_get t) (seq 0 6)) = Ok [111; 110; 97; 111; 118; 101]%N /\
  (do t <- wt_make_signed l; wt_rank t 3) = Ok 1 /\ (do t <- wt_make_signed l; wt_rank_c t 111 6) = Ok 2 /\ wt_make_signed [-17; -1]%Z = UB.
Proof.
  cbv zeta. split; [repeat constructor; discriminate|]. split; [split; [simpl; tauto|simpl; intros x H; repeat (destruct H as [<-|H]; [discriminate|]); destruct H]|].
  do 3 (split; [vm_compute; reflexivity|]). vm_compute; reflexivity.
Qed.

(** DacVector and CDRWArray: a single negative value is undefined *)
Theorem C120_dacvector : forall l units x, units <> [] -> Forall signed_value l -> In x l -> (x < 0)%Z -> dac_of_signed l units = UB.
Proof. exact dac_signed. Qed.
Print Assumptions C120_dacvector.
Theorem C120_cdrwarray : forall l x, (N.of_nat (length l) < 2 ^ 49)%N -> Forall signed_value l -> In x l -> (x < 0)%Z -> cdrw_of_signed l = UB.
Proof. exact cdrw_signed. Qed.
Print Assumptions C120_cdrwarray.
Example C120_negative_ex : Forall signed_value [3; -1; 7]%Z /\ In (-1)%Z [3; -1; 7]%Z /\ dac_of_signed [3; -1; 7]%Z [4; 4] = UB /\ cdrw_of_signed [3; -1; 7]%Z = UB /\ (exists d, dac_of_signed [3; 31; 7]%Z [4; 4] = Ok d).
Proof. split; [repeat constructor; discriminate|]. split; [simpl; auto|]. split; [vm_compute; reflexivity|]. split; [vm_compute; reflexivity|]. eexists. vm_compute. reflexivity. Qed.
