(** InitCostModel.v does what InitArrayModel.v does, and how much it counts. *)
From Coq Require Import List NArith ZArith Arith Bool Lia.
From Verif Require Import Base Spec3 Spec30 CostBase InitArrayModel InitCostModel.
Import ListNotations.
Local Open Scope nat_scope.

Ltac cbnd := eapply costs_le; [eapply costs_bind|].
Lemma costs_if A (b : bool) (m m' : cres A) r r' c : costs m r c -> costs m' r' c -> costs (if b then m else m') (if b then r else r') c.
Proof. destruct b; auto. Qed.

Section Folklore.
Context {A : Type}.
Implicit Types s : folklore A.
Lemma fk_is_chained_cost s i : costs (fk_is_chained_c s i) (fk_is_chained s i) 2.
Proof.
  unfold fk_is_chained_c, fk_is_chained. apply (costs_bind _ _ _ _ 1 _ _ 1); [apply costs_paid|]. intros p _. apply costs_if; [|apply costs_ret].
  apply (costs_bind _ _ _ _ 1 _ _ 0); [apply costs_paid|]. intros x _. apply costs_ret.
Qed.
Lemma fk_get_cost s i : costs (fk_get_c s i) (fk_get s i) 3.
Proof.
  unfold fk_get_c, fk_get. apply (costs_bind _ _ _ _ 2 _ _ 1); [apply fk_is_chained_cost|]. intros c _. apply costs_if; [|apply costs_ret].
  apply (costs_bind _ _ _ _ 1 _ _ 0); [apply costs_paid|]. intros x _. apply costs_ret.
Qed.
Lemma fk_set_cost s i v : costs (fk_set_c s i v) (fk_set s i v) 5.
Proof.
  unfold fk_set_c, fk_set. apply (costs_bind _ _ _ _ 2 _ _ 3); [apply fk_is_chained_cost|]. intros c _. apply (costs_bind _ _ _ _ 2 _ _ 1).
  - apply costs_if; [apply costs_ret|]. apply (costs_bind _ _ _ _ 0 _ _ 2); [apply costs_free|]. intros p _.
    apply (costs_bind _ _ _ _ 1 _ _ 1); [apply costs_paid|]. intros fv _.
    change (Ok (Folk (fk_init s) fv (fk_t s ++ [i]))) with (do t <- Ok (fk_t s ++ [i]); Ok (Folk (fk_init s) fv t)).
    apply (costs_bind _ _ _ _ 1 _ _ 0); [apply costs_paid|]. intros t _. apply costs_ret.
  - intros s' _. apply (costs_bind _ _ _ _ 0 _ _ 1); [apply costs_free|]. intros p _.
    apply (costs_bind _ _ _ _ 1 _ _ 0); [apply costs_paid|]. intros t _. apply costs_ret.
Qed.
End Folklore.

Section InPlace.
Variables (w : N) (size : nat).
Lemma ia_to_cost s i : costs (ia_to_c s i) (ia_to s i) 1. Proof. apply costs_paid. Qed.
Lemma ia_put_cost s i x : costs (ia_put_c s i x) (ia_put s i x) 1.
Proof. unfold ia_put_c, ia_put. apply (costs_bind _ _ _ _ 1 _ _ 0); [apply costs_paid|]. intros a _. apply costs_ret. Qed.
Lemma ia_chained_to_cost s b : costs (ia_chained_to_c size s b) (ia_chained_to size s b) 2.
Proof.
  unfold ia_chained_to_c, ia_chained_to. apply (costs_bind _ _ _ _ 1 _ _ 1); [apply ia_to_cost|]. intros x _. apply costs_if; [|apply costs_ret].
  apply (costs_bind _ _ _ _ 1 _ _ 0); [apply ia_to_cost|]. intros t _. cbv zeta. apply costs_if; apply costs_ret.
Qed.
Lemma ia_make_chain_cost s bi bj : costs (ia_make_chain_c w s bi bj) (ia_make_chain w s bi bj) 2.
Proof. unfold ia_make_chain_c, ia_make_chain. apply (costs_bind _ _ _ _ 1 _ _ 1); [apply ia_put_cost|]. intros x _. apply ia_put_cost. Qed.
Lemma ia_break_chain_cost s b : costs (ia_break_chain_c w size s b) (ia_break_chain w size s b) 3.
Proof.
  unfold ia_break_chain_c, ia_break_chain. apply (costs_bind _ _ _ _ 2 _ _ 1); [apply ia_chained_to_cost|]. intros [k|] _; [apply ia_put_cost|apply costs_ret].
Qed.
Lemma ia_init_block_cost s b : costs (ia_init_block_c s b) (ia_init_block s b) 2.
Proof. unfold ia_init_block_c, ia_init_block. apply (costs_bind _ _ _ _ 1 _ _ 1); [apply ia_put_cost|]. intros x _. apply ia_put_cost. Qed.
Lemma ia_extend_cost s : costs (ia_extend_c w size s) (ia_extend w size s) 12.
Proof.
  unfold ia_extend_c, ia_extend. apply (costs_bind _ _ _ _ 2 _ _ 10); [apply ia_chained_to_cost|]. intros k _. cbv zeta.
  apply (costs_bind _ _ _ _ 5 _ _ 5).
  - destruct k as [k|]; [|apply costs_ret]. apply (costs_bind _ _ _ _ 1 _ _ 4); [apply ia_to_cost|]. intros x _.
    apply (costs_bind _ _ _ _ 1 _ _ 3); [apply ia_put_cost|]. intros s1 _. apply (costs_bind _ _ _ _ 3 _ _ 0); [apply ia_break_chain_cost|]. intros s2 _. apply costs_ret.
  - intros sk _. apply (costs_bind _ _ _ _ 2 _ _ 3); [apply ia_init_block_cost|]. intros s1 _.
    apply (costs_bind _ _ _ _ 3 _ _ 0); [apply ia_break_chain_cost|]. intros s2 _. apply costs_ret.
Qed.
Lemma ia_get_cost (next : N -> res nat) s i : costs (ia_get_c next size s i) (ia_get next size s i) 4.
Proof.
  unfold ia_get_c, ia_get. cbv zeta. apply (costs_bind _ _ _ _ 2 _ _ 2); [apply ia_chained_to_cost|]. intros k _. apply costs_if.
  - destruct k; [apply costs_ret|]. apply (costs_le _ _ _ 1); [apply ia_to_cost|lia].
  - destruct k as [k|]; [|apply costs_ret]. apply costs_if; [|apply (costs_le _ _ _ 1); [apply ia_to_cost|lia]].
    apply (costs_bind _ _ _ _ 1 _ _ 1); [apply ia_to_cost|]. intros x _. apply (costs_bind _ _ _ _ 0 _ _ 1); [apply costs_free|]. intros j _. apply ia_to_cost.
Qed.
Lemma ia_write_uca_cost s i v : costs (ia_write_uca_c w size s i v) (ia_write_uca w size s i v) 4.
Proof. unfold ia_write_uca_c, ia_write_uca. apply (costs_bind _ _ _ _ 1 _ _ 3); [apply ia_put_cost|]. intros x _. apply ia_break_chain_cost. Qed.
Lemma ia_write_wca_cost s i k v : costs (ia_write_wca_c s i k v) (ia_write_wca s i k v) 1.
Proof. unfold ia_write_wca_c, ia_write_wca. apply costs_if; apply ia_put_cost. Qed.
Lemma ia_set_cost s i v : costs (ia_set_c w size s i v) (ia_set w size s i v) 26.
Proof.
  unfold ia_set_c, ia_set. cbv zeta. apply (costs_bind _ _ _ _ 2 _ _ 24); [apply ia_chained_to_cost|]. intros k _. apply costs_if.
  - destruct k as [k|]; [|apply (costs_le _ _ _ 4); [apply ia_write_uca_cost|lia]].
    apply (costs_bind _ _ _ _ 12 _ _ 12); [apply ia_extend_cost|]. intros [s1 j] _. apply costs_if; [apply (costs_le _ _ _ 4); [apply ia_write_uca_cost|lia]|].
    apply (costs_bind _ _ _ _ 1 _ _ 11); [apply ia_to_cost|]. intros x _. apply (costs_bind _ _ _ _ 1 _ _ 10); [apply ia_put_cost|]. intros s2 _.
    apply (costs_bind _ _ _ _ 1 _ _ 9); [apply ia_to_cost|]. intros y _. apply (costs_bind _ _ _ _ 1 _ _ 8); [apply ia_put_cost|]. intros s3 _.
    apply (costs_bind _ _ _ _ 2 _ _ 6); [apply ia_make_chain_cost|]. intros s4 _. apply (costs_bind _ _ _ _ 2 _ _ 4); [apply ia_init_block_cost|]. intros s5 _.
    apply ia_write_uca_cost.
  - destruct k as [k|]; [apply (costs_le _ _ _ 1); [apply ia_write_wca_cost|lia]|].
    apply (costs_bind _ _ _ _ 12 _ _ 12); [apply ia_extend_cost|]. intros [s1 k] _. apply costs_if; [apply (costs_le _ _ _ 4); [apply ia_write_uca_cost|lia]|].
    apply (costs_bind _ _ _ _ 2 _ _ 10); [apply ia_init_block_cost|]. intros s2 _. apply (costs_bind _ _ _ _ 2 _ _ 8); [apply ia_make_chain_cost|]. intros s3 _.
    apply (costs_le _ _ _ 1); [apply ia_write_wca_cost|lia].
Qed.
End InPlace.

Lemma foldC_cost A S (f : S -> ia_op A -> cres S) g c : (forall s o, costs (f s o) (g s o) (match o with IASet _ _ => c | IAFill _ => 0 end)) ->
  forall ops s, costs (foldC f ops s) (foldM g ops s) (c * writes ops).
Proof.
  intros H. induction ops as [|o ops IH]; intros s; [apply costs_ret|]. cbn [foldC foldM].
  apply (costs_le _ _ _ (match o with IASet _ _ => c | IAFill _ => 0 end + c * writes ops)).
  - apply costs_bind; [apply H|]. intros x _. apply IH.
  - unfold writes. destruct o; cbn [filter length]; lia.
Qed.
Lemma fk_history_cost A (s : folklore A) ops : costs (fk_history_c s ops) (foldM fk_step ops s) (5 * writes ops).
Proof. apply foldC_cost. intros s' [v|i v]; [apply costs_ret|apply fk_set_cost]. Qed.
Lemma ia_run_cost w size mem v ops : costs (ia_run_c w size mem v ops) (ia_run w size mem v ops) (26 * writes ops).
Proof.
  unfold ia_run, ia_step. intros k. unfold ia_run_c, cbind, ia_make_c, cret. cbn [bind fst snd]. revert k.
  refine (foldC_cost N inplace _ _ 26 _ ops (IA v 0 mem)). intros s' [x|i x]; [apply costs_ret|apply ia_set_cost].
Qed.
