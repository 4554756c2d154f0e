(** C15 (writing through at), C26 (size) and C73 (FitVector.hpp, WaveletTree.hpp). *)
From Coq Require Import List NArith ZArith Lia Bool Arith.
From Verif Require Import Base Spec Spec2 BitVectorModel FitVectorModel FitVectorProof WaveletModel WaveletExact AtProof.
Import ListNotations.
Local Open Scope nat_scope.

(** whatever the width and contents, writing through at throws exactly for an index outside the vector; inside it stores the value *)
Theorem C15_fitvector_at_set : forall w n ws i x, 1 <= w <= 63 -> length ws = fv_word_size n w -> Forall (fun y => (y < 2 ^ 64)%N) ws -> (x < 2 ^ N.of_nat w)%N ->
  (n <= i -> fv_at_set (FV w n ws) i x = Throw) /\ (i < n -> exists v', fv_at_set (FV w n ws) i x = Ok v' /\ fv_at v' i = Ok x /\ forall j, j <> i -> fv_at v' j = fv_at (FV w n ws) j).
Proof.
  intros w n ws i x W L F X. unfold fv_at_set. cbn [fv_size]. split; intros I; destruct (Nat.leb_spec n i) as [H|H]; auto; try lia.
  destruct (fv_write_independent w n ws i x W L F I X) as (v' & E & Z & _ & G & J). exists v'. split; auto. unfold fv_at. rewrite Z. cbn [fv_size]. split.
  - destruct (Nat.leb_spec n i); [lia|auto].
  - intros j Hj. destruct (Nat.leb_spec n j); auto. destruct (J j ltac:(lia) Hj) as (y & -> & ->). reflexivity.
Qed.
Print Assumptions C15_fitvector_at_set.
Example C15_fitvector_at_set_ex : fv_at_set (fv_sized 5 10) 10 7 = Throw /\ (do v <- fv_at_set (fv_sized 5 10) 9 7; fv_at v 9) = Ok 7%N.
Proof. split; vm_compute; reflexivity. Qed.

Theorem C26_size : forall l, l <> [] -> Forall (fun x => (x < 2 ^ 31)%N) l -> exists t, wt_make l = Ok t /\ wt_size t = Ok (length l).
Proof. exact wt_size_ok. Qed.
Print Assumptions C26_size.
Example C26_size_ex : (do t <- wt_make [3; 200; 0]%N; wt_size t) = Ok 3.
Proof. vm_compute. reflexivity. Qed.
(** there is no tree for the empty sequence or with a value from 2^31 on *)
Theorem C26_make_undefined : forall l, l = [] \/ Exists (fun x => (2 ^ 31 <= x)%N) l -> wt_make l = UB.
Proof. exact wt_make_undefined. Qed.
Print Assumptions C26_make_undefined.
Example C26_make_undefined_ex : Exists (fun x => (2 ^ 31 <= x)%N) [5; 2 ^ 31; 7]%N.
Proof. apply Exists_exists. exists (2 ^ 31)%N. split; [cbn; auto|lia]. Qed.

(** rank(c, i) for every symbol and every position up to the end *)
Theorem C73_rank_symbol : forall l c i, l <> [] -> Forall (fun x => (x < 2 ^ 31)%N) l -> (N.of_nat (length l) < 2 ^ 63)%N -> i <= length l -> (c < 256)%N ->
  exists t, wt_make l = Ok t /\ let c' := (c mod 2 ^ N.of_nat (bits_needed (max_element l)))%N in
  ((exists k, 1 <= k <= bits_needed (max_element l) /\ sharing k c' (firstn i l) = sharing k c' l /\ sharing k c' l mod 64 = 0 /\ sharing k c' l <> 0) -> wt_rank_c t c i = UB) /\
  (~ (exists k, 1 <= k <= bits_needed (max_element l) /\ sharing k c' (firstn i l) = sharing k c' l /\ sharing k c' l mod 64 = 0 /\ sharing k c' l <> 0) -> wt_rank_c t c i = Ok (count_if (fun x => (x =? c')%N) (firstn i l))).
Proof. exact wt_rank_c_exact. Qed.
Print Assumptions C73_rank_symbol.
(** 64 equal elements in front of another one: undefined from position 64 on, although position 65 is the end *)
Example C73_ex : let l := repeat 1%N 64 ++ [2%N] in sharing 1 1 (firstn 64 l) = sharing 1 1 l /\ sharing 1 1 l = 64 /\
  (do t <- wt_make l; wt_rank_c t 1 64) = UB /\ (do t <- wt_make l; wt_rank_c t 1 63) = Ok 63 /\ (do t <- wt_make l; wt_rank_c t 5 63) = Ok 63 /\ (do t <- wt_make l; wt_rank_c t 2 65) = Ok 1.
Proof. cbv zeta. do 5 (split; [vm_compute; reflexivity|]). vm_compute. reflexivity. Qed.
(** the number of node ids of the last [diff] lengths up to that of [node] *)
Theorem C73_node_diff : forall node diff, (node < 2 ^ 63)%N -> diff <= bits_needed node ->
  wt_node_diff node (N.of_nat diff) = Ok (2 ^ N.of_nat (bits_needed node) - 2 ^ N.of_nat (bits_needed node - diff))%N.
Proof. exact node_diff_ok. Qed.
Print Assumptions C73_node_diff.
Example C73_node_diff_ex : wt_node_diff 13 2 = Ok 12%N /\ bits_needed 13 = 4.
Proof. split; vm_compute; reflexivity. Qed.

(** the same for every vector of bits *)
Theorem C15_bitvector_at_set : forall v l i x, bv_reach v l -> (length l <= i -> bv_at_set v i x = Throw) /\
  (i < length l -> exists v', bv_at_set v i x = Ok v' /\ bv_size v' = length l /\ forall j, bv_at v' j = if j =? i then Ok x else bv_at v j).
Proof. exact reach_at_set. Qed.
Print Assumptions C15_bitvector_at_set.
Example C15_bitvector_at_set_ex : bv_at_set (bv_sized 3) 3 true = Throw /\ (do v <- bv_at_set (bv_sized 3) 2 true; bv_at v 2) = Ok true.
Proof. split; vm_compute; reflexivity. Qed.
