(** The memory held by the containers other than DacVector, counted like there: the words in the vectors, without what the
    allocator adds. *)
From Coq Require Import List NArith Arith.
From Verif Require Import Base BitVectorModel FitVectorModel SuccinctModel WaveletModel CHTModel DacSpaceModel.
Import ListNotations.
Local Open Scope nat_scope.

(** WaveletTree.hpp:27: all nodes *)
Definition wt_words (t : wavelet) : nat := list_sum (map path_words (wt_nodes t)).
(** CHT.hpp:34-35: the slots and the values *)
Definition cht_words (t : cht) : nat := length (fv_words (ch_arr t)) + length (fv_words (ch_values t)).
