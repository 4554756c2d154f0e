(** C94: the compact hash table in a build with assertions on. *)
From Coq Require Import List NArith ZArith Arith Bool Lia.
From Verif Require Import Base Spec8 Spec11 CHTModel CHTDebugModel CHTDebug2.
From Verif Require CHTDel.
Import ListNotations.
Local Open Scope nat_scope.

(** the constructor fails an assertion exactly if the number of buckets is not a power of two *)
Theorem C94_construct : forall VB L kb VW bucket, VB = 0 \/ VB = VW -> kb <= 60 -> VW <= 64 -> (N.of_nat bucket < 2 ^ 64)%N ->
  (power_of_two bucket -> exists t, cht_start_d VB L kb bucket VW = Ok t /\ cht_start VB L kb bucket VW = Ok t) /\ (~ power_of_two bucket -> cht_start_d VB L kb bucket VW = Throw).
Proof. exact (fun VB L kb VW bucket H1 H2 H3 => start_exact VB L kb VW H1 H2 H3 bucket). Qed.
Print Assumptions C94_construct.
Example C94_construct_example : power_of_two 8 /\ ~ power_of_two 12 /\ cht_start_d 0 50 4 12 4 = Throw.
Proof.
  split; [exists 3; reflexivity|]. split; [|vm_compute; reflexivity]. intros (b & E). do 4 (destruct b; [discriminate|]). pose proof (Nat.pow_le_mono_r 2 4 (S (S (S (S b)))) ltac:(lia) ltac:(lia)). change (2 ^ 4) with 16 in *. lia.
Qed.

(** keys and values that fit: the assertions change nothing; a lookup fails one exactly if the key does not fit *)
Theorem C94_history : forall VB L kb VW b ops, VB = 0 \/ VB = VW -> kb <= 60 -> VW <= 64 -> b < 64 -> Forall (stores_fit kb VW) ops ->
  (tab_run VB L kb (2 ^ b) VW ops <> UB -> tab_run_d VB L kb (2 ^ b) VW ops = tab_run VB L kb (2 ^ b) VW ops) /\
  forall t k, tab_run VB L kb (2 ^ b) VW ops = Ok t -> (k < 2 ^ 64)%N ->
    cht_get_d t k = if (k <? 2 ^ N.of_nat kb)%N then cht_get t k else Throw.
Proof. exact (fun VB L kb VW b ops H1 H2 H3 => run_agr VB L kb VW H1 H2 H3 b ops). Qed.
Print Assumptions C94_history.
(** a key or a value that does not fit *)
Theorem C94_unfit : forall VB L kb VW b pre k v post t, VB = 0 \/ VB = VW -> kb <= 60 -> VW <= 64 -> b < 64 -> Forall (stores_fit kb VW) pre ->
  (k < 2 ^ 64)%N -> (v < 2 ^ 64)%N -> ~ ((k < 2 ^ N.of_nat kb)%N /\ (v < 2 ^ N.of_nat VW)%N) ->
  tab_run VB L kb (2 ^ b) VW pre = Ok t -> tab_run_d VB L kb (2 ^ b) VW (pre ++ TabSet k v :: post) = Throw.
Proof. exact (fun VB L kb VW b pre k v post t H1 H2 H3 => run_unfit VB L kb VW H1 H2 H3 b pre k v post t). Qed.
Print Assumptions C94_unfit.
(** until the table is completely full, no history of keys and values that fit fails an assertion, and lookups find what C86 says *)
Theorem C94_never : forall kb VB VW L bb ops, kb <= 60 -> 1 <= L <= 99 -> 1 <= VW <= 63 -> VB = 0 \/ VB = VW ->
  1 <= bb <= 60 -> 1 <= 2 ^ bb * L / 100 -> (N.of_nat (length ops) < 2 ^ 50)%N -> Forall (tab_op_in kb VW) ops ->
  (exists pre post t, ops = pre ++ post /\ tab_run_d VB L kb (2 ^ bb) VW pre = Ok t /\ ch_used t = ch_bucket t) \/
  (exists t lost, tab_run_d VB L kb (2 ^ bb) VW ops = Ok t /\ length lost <= erases ops /\
    forall k, (k < 2 ^ N.of_nat kb)%N -> cht_get_d t k = Ok (if in_dec N.eq_dec k lost then None else last_tab k ops)).
Proof.
  intros kb VB VW L bb ops H1 H2 H3 H4 H5 H6 H7 H8.
  assert (Fi : forall l, Forall (tab_op_in kb VW) l -> Forall (stores_fit kb VW) l) by (intros l; apply Forall_impl; intros [k v|k|n]; cbn; auto).
  destruct (CHTDel.tab_correct kb VB VW L H1 H2 H3 H4 bb ops H5 H6 H7 H8) as [(pre & post & t & E & R & U)|(t & lost & R & Le & G)].
  - left. exists pre, post, t. split; [exact E|]. split; [|exact U]. subst ops. apply Forall_app in H8 as (H8 & _).
    destruct (run_agr VB L kb VW H4 H1 ltac:(lia) bb pre ltac:(lia) (Fi _ H8)) as (A & _). rewrite A; [exact R|rewrite R; discriminate].
  - right. exists t, lost. destruct (run_agr VB L kb VW H4 H1 ltac:(lia) bb ops ltac:(lia) (Fi _ H8)) as (A & B). split; [rewrite A; [exact R|rewrite R; discriminate]|]. split; [exact Le|].
    intros k Hk. rewrite (B t k R) by (eapply N.lt_le_trans; [exact Hk|]; apply N.pow_le_mono_r; lia). rewrite (proj2 (N.ltb_lt _ _) Hk). auto.
Qed.
Print Assumptions C94_never.
(** the same history as in C86, then a value of five bits, then a lookup of a key of five bits *)
Example C94_example :
  let ops := [TabSet 1 5; TabSet 5 3; TabErase 5; TabSet 9 2; TabSet 12 7; TabSet 3 1; TabSet 7 6]%N in
  Forall (stores_fit 4 4) ops /\
  (do t <- tab_run_d 0 50 4 (2 ^ 3) 4 ops; do a <- cht_get_d t 1; do b <- cht_get_d t 5; Ok (a, b, ch_bucket t)) = Ok (None, Some 3%N, 16) /\
  tab_run_d 0 50 4 (2 ^ 3) 4 (ops ++ [TabSet 1 16%N]) = Throw /\
  (do t <- tab_run_d 0 50 4 (2 ^ 3) 4 ops; cht_get_d t 17) = Throw.
Proof. cbv zeta. split; [repeat constructor|]. split; [vm_compute; reflexivity|]. split; vm_compute; reflexivity. Qed.
