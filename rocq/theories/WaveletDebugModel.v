(** WaveletTree.hpp in a build with assertions on: rank(c, i) is the only function with one. [Throw] stands for a failed assertion. *)
From Coq Require Import List NArith ZArith Arith Bool.
From Verif Require Import Base BitVectorModel SuccinctModel FoDebugModel WaveletModel.
Import ListNotations.
Local Open Scope nat_scope.

(** WaveletTree.hpp:83-93 with the assertion of line 88 *)
Fixpoint wt_rank_c_loop_d (k : nat) (nodes : list sbv) (c : N) (id idx : nat) : res nat :=
  match k with
  | O => Ok idx
  | S k =>
      do n <- lget nodes (id - 1);
      let bit := N.testbit c (N.of_nat k) in
      do stored <- sb_get n idx;
      do _ <- assert_that (Bool.eqb bit stored);
      do idx <- wt_child n bit idx;
      wt_rank_c_loop_d k nodes c (next_id id bit) idx
  end.
Definition wt_rank_c_d (t : wavelet) (c : N) (index : nat) : res nat := wt_rank_c_loop_d (wt_height t) (wt_nodes t) (c mod 256) 1 index.
