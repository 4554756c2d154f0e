(** What erase breaks: histories that never end, and the size counter. *)
From Coq Require Import List NArith ZArith Arith Bool Lia.
From Verif Require Import Base Spec8 HashModel FitVectorModel CHTModel CHTLimits.
Import ListNotations.
Local Open Scope nat_scope.

(** the defaults of the source (8 buckets, 50 per cent) *)
Definition hang_ops : list tab_op := [TabSet 37 1; TabSet 7 1; TabErase 2; TabSet 3 1; TabErase 2; TabSet 53 1; TabErase 14; TabSet 55 1; TabSet 36 1]%N.
Lemma hang : exists t, tab_run 8 50 6 8 8 hang_ops = Ok t /\ ch_used t = ch_bucket t /\ tab_run 8 50 6 8 8 (hang_ops ++ [TabSet 0 1])%N = Fuel /\
  forall fuel i, i < ch_bucket t -> find_null fuel t i = Fuel.
Proof.
  eexists. split; [vm_compute; reflexivity|]. split; [reflexivity|]. split; [vm_compute; reflexivity|].
  cbn [ch_bucket]. intros fuel i Hi. apply find_null_endless; cbn [ch_bucket]; auto.
  intros j Hj. do 4 (destruct j as [|j]; [eexists; split; vm_compute; reflexivity|]). exfalso. lia.
Qed.
Definition under_ops : list tab_op := [TabSet 23 1; TabErase 23; TabSet 17 1; TabSet 3 1; TabErase 17; TabErase 23; TabSet 0 1; TabSet 61 1; TabErase 0; TabErase 17]%N.
(** erase with the counter left open, so that 2^64 - 1 is never written in unary *)
Definition erase_with (down : nat -> nat) (t : cht) (key : N) : res cht :=
  do h <- HashModel.sm_hash (N.of_nat (ch_key_bits t)) key;
  if ch_bucket_bits t =? 0 then UB else
  let quo := (h / N.of_nat (ch_bucket_bits t))%N in
  do m <- shl64 1 (N.of_nat (ch_bucket_bits t));
  let initial_i := N.to_nat (N.land h (wsub m 1)) in
  do w <- fv_get (ch_arr t) initial_i;
  if negb (is_occupied w) then Ok t else
  do i <- to_cluster_head t initial_i;
  do r <- find_quotient (S (ch_bucket t)) t quo i;
  match r with
  | inl i => do w <- fv_get (ch_arr t) i;
             if is_deleted w then Ok t
             else do t <- put_word t i (N.lor w kDeletedMask); Ok (with_counts t (down (ch_size t)) (ch_used t))
  | inr _ => Ok t
  end.
Lemma erase_with_eq : forall t k, cht_erase_here t k = erase_with size_down t k.
Proof. reflexivity. Qed.
Definition result (r : res cht) : cht := match r with Ok t => t | _ => cht_make 8 50 6 32 end.
Definition under_t : cht := result (tab_run 8 50 6 32 8 under_ops).
Definition under_t1 : cht := result (erase_with (fun s => s) under_t 23).
Lemma under_gen : forall ops k t t1 u, tab_run 8 50 6 32 8 ops = Ok t -> ch_size t = 0 -> ch_min t = 4 -> (forall f, erase_with f t k = Ok (with_counts t1 (f 0) u)) ->
  exists t t', tab_run 8 50 6 32 8 ops = Ok t /\ ch_size t = 0 /\ tab_run 8 50 6 32 8 (ops ++ [TabErase k]) = Ok t' /\ N.of_nat (ch_size t') = (2 ^ 64 - 1)%N.
Proof.
  intros ops k t t1 u E S0 M0 X. exists t, (with_counts t1 (size_down 0) u). split; [exact E|]. split; [exact S0|]. split.
  - unfold tab_run in *. apply bind_Ok_inv in E. destruct E as (t0 & E0 & E). rewrite E0. cbn [bind]. rewrite foldM_app, E. cbn [bind foldM tab_step]. unfold cht_erase. rewrite S0, M0. cbn [Nat.eqb bind].
    rewrite erase_with_eq, X. reflexivity.
  - assert (Ew : forall s, ch_size (with_counts t1 s u) = s) by reflexivity. rewrite Ew. unfold size_down. rewrite N2Nat.id. reflexivity.
Qed.
Lemma under : exists t t', tab_run 8 50 6 32 8 under_ops = Ok t /\ ch_size t = 0 /\ tab_run 8 50 6 32 8 (under_ops ++ [TabErase 23])%N = Ok t' /\ N.of_nat (ch_size t') = (2 ^ 64 - 1)%N.
Proof.
  apply (under_gen under_ops 23%N under_t under_t1 (ch_used under_t1)); [| | |intros f]; vm_compute; reflexivity.
Qed.
