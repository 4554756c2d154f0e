(** C88: CDRWArray under arbitrary writes. *)
From Coq Require Import List NArith ZArith Arith Bool.
From Verif Require Import Base Spec4 Spec8 CHTModel CDRWModel CDRWAll CDRWLimits.
Import ListNotations.
Local Open Scope nat_scope.

(** until one of the tables is completely full *)
Theorem C88_all_writes : forall n ws, 1 <= n -> (N.of_nat n <= 2 ^ 50)%N -> Forall (fun w => fst w < n /\ (snd w < 2 ^ 64)%N) ws -> (N.of_nat (length ws) < 2 ^ 49)%N ->
  (exists pre post a, ws = pre ++ post /\ cdrw_run n pre = Ok a /\ exists t, In t (cd_tables a) /\ ch_used t = ch_bucket t) \/
  (if existsb (fun w => (2 ^ 63 <=? snd w)%N) ws then cdrw_run n ws = UB else
   exists a lost, cdrw_run n ws = Ok a /\ length lost <= width_changes ws /\ forall i, i < n -> cdrw_get a i = Ok (if in_dec Nat.eq_dec i lost then 0%N else last_value ws i)).
Proof. exact (fun n ws a b => all_writes n a b ws). Qed.
Print Assumptions C88_all_writes.
(** element 6 is lost: two writes change the bit length of an element *)
Example C88_example : let ws := [(6, 2%N); (3, 1%N); (3, 0%N); (0, 3%N); (1, 1%N); (1, 0%N)] in
  (Forall (fun w => fst w < 8 /\ (snd w < 2 ^ 64)%N) ws /\ width_changes ws = 2) /\
  (do a <- cdrw_run 8 ws; mapM (cdrw_get a) [0; 1; 3; 6]) = Ok [3; 0; 0; 0]%N /\ map (last_value ws) [0; 1; 3; 6] = [3; 0; 0; 2]%N.
Proof. split; [split; [repeat constructor|reflexivity]|]. split; vm_compute; reflexivity. Qed.

(** twelve writes fill a table, and the next write never ends *)
Theorem C43_endless_refuted : exists n ws i v a t, Forall (fun w => fst w < n /\ (snd w < 4)%N) (ws ++ [(i, v)]) /\ cdrw_run n ws = Ok a /\
  In t (cd_tables a) /\ ch_used t = ch_bucket t /\ cdrw_set a i v = Fuel /\ forall fuel j, j < ch_bucket t -> find_null fuel t j = Fuel.
Proof.
  exists 64, full_writes, 0, 2%N, full_array, full_tab. split; [|split; [exact full_array_run|exact full_array_ends]].
  repeat constructor.
Qed.
Print Assumptions C43_endless_refuted.
