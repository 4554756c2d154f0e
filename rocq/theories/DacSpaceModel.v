(** The memory held by a DacVector. *)
From Coq Require Import List NArith Arith.
From Verif Require Import Base BitVectorModel FitVectorModel SuccinctModel DacModel.
Import ListNotations.
Local Open Scope nat_scope.

(** SuccinctBitVector.hpp:18-25 and BitVector.hpp:43: the words of the bits, of the rank directory and of the select tips of one
    path; each is a vector, counted with its size (a tip, of which a
    DacVector has none, is half a word; what the allocator adds, and the capacity above the size, are not modelled) *)
Definition path_words (p : sbv) : nat := length (bv_words (sb_bits p)) + length (sb_block p) + length (sb_tips p).
(** DacVector.hpp:126-127 and FitVector.hpp:51: all layers and all paths *)
Definition dac_words (d : dac) : nat :=
  list_sum (map (fun L => length (fv_words L)) (dac_layers d)) + list_sum (map path_words (dac_paths d)).
(** DacVector.hpp:126: how many chunks each layer holds *)
Definition dac_counts (d : dac) : list nat := map fv_size (dac_layers d).
