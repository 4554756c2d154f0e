(** What the implicitly declared move constructors leave behind. None of the containers below declares a copy or move
    operation, so members of class type are moved and the others copied; a std::vector that was moved from by its
    constructor is empty, while sizes and widths stay as they were. (After a move assignment the standard leaves the
    content of the vector unspecified; only move construction is modelled.) *)
From Coq Require Import List NArith ZArith Arith Bool.
From Verif Require Import Base BitVectorModel SuccinctModel FitVectorModel WaveletModel DacModel CHTModel SamcModel TrieModel.
Import ListNotations.
Local Open Scope nat_scope.

(** BitVector.hpp:42-43: actual_size_ stays. Also the state of the argument of SuccinctBitVector(BitVector&&)
    (SuccinctBitVector.hpp:30, 81). *)
Definition bv_moved (v : bitvec) : bitvec := BV (bv_size v) [].
(** FitVector.hpp:46-51: width, mask and size_ stay *)
Definition fv_moved (v : fitvec) : fitvec := FV (fv_width v) (fv_size v) [].
(** SuccinctBitVector.hpp:19-25 *)
Definition sb_moved (s : sbv) : sbv := SBV (bv_moved (sb_bits s)) [] [].
(** SuccinctBitVector.hpp:28, the default constructor *)
Definition sb_default : sbv := SBV bv_default [] [].
(** WaveletTree.hpp:24-27 *)
Definition wt_moved (t : wavelet) : wavelet := WT (wt_height t) (wt_leafs t) [].
(** DacVector.hpp:124-127 *)
Definition dac_moved (d : dac) : dac := Dac (dac_num d) [] [] [].
(** CHT.hpp:27-38 *)
Definition cht_moved (t : cht) : cht :=
  CHT (ch_key_bits t) (ch_bucket t) (ch_bucket_bits t) (ch_max t) (ch_min t) (fv_moved (ch_arr t)) (fv_moved (ch_values t)) (ch_quo_bits t) (ch_size t) (ch_used t).
(** Samc.hpp:78-80; also the default constructor (83, 286) *)
Definition samc_moved (s : samc) : samc := {| sm_storage := []; sm_codes := []; sm_head := [] |}.
(** Samc.hpp:349 *)
Definition dict_moved (t : samc_dict) : samc_dict := {| sd_samc := samc_moved (sd_samc t); sd_leaves := sb_moved (sd_leaves t) |}.
(** graph_util.hpp:75-76 *)
Definition trie_moved {A} (t : trie A) : trie A := {| tr_nodes := []; tr_store := [] |}.
