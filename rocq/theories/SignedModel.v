(** Model of the constructors of FitVector, WaveletTree, DacVector and CDRWArray from sequences of a signed type
    T (char, int, long, ...). What is built holds no values of type T; the queries are those of the unsigned models. *)
From Coq Require Import List NArith ZArith Arith Bool.
From Verif Require Import Base Spec BitUtilModel CalcModel BitVectorModel SuccinctModel FitVectorModel WaveletModel DacModel CDRWModel.
Import ListNotations.
Local Open Scope nat_scope.

(** conversion of a signed value to id_type, size_t or unsigned long long *)
Definition to_word (x : Z) : N := Z.to_N (x mod 2 ^ 64).

(** std::max_element on a non-empty vector of signed values: FitVector.hpp:83, WaveletTree.hpp:32 *)
Definition max_element_signed (x : Z) (l : list Z) : Z := fold_left Z.max l x.

(** FitVector.hpp:79-85; the argument of SizeFitsInBits is an unsigned long long *)
Definition minimal_word_size_signed (l : list Z) : res nat :=
  match l with [] => Ok 0 | x :: l => SizeFitsInBits (to_word (max_element_signed x l)) end.
(** FitVector.hpp:69-75, with the cast of line 74 *)
Definition fv_of_signed (l : list Z) : res fitvec :=
  do w <- minimal_word_size_signed l;
  foldM (fun v x => fv_push_back v (to_word x)) l (fv_make w).

(** WaveletTree.hpp:41-47, one value; [value >> k] of a negative value shifts the sign in; [k] is height_ - depth *)
Fixpoint wt_insert_signed (k : nat) (nodes : list bitvec) (id : nat) (value : Z) : res (list bitvec) :=
  match k with
  | O => Ok nodes
  | S k =>
      let bit := Z.testbit (Z.shiftr value (Z.of_nat k)) 0 in
      do n <- lget nodes (id - 1);
      do n' <- bv_push_back n bit;
      do nodes' <- lset nodes (id - 1) n';
      wt_insert_signed k nodes' (next_id id bit) value
  end.
(** WaveletTree.hpp:31-53 *)
Definition wt_make_signed (l : list Z) : res wavelet :=
  match l with
  | [] => UB
  | x :: l' =>
      let max_char := to_word (max_element_signed x l') in
      do height <- SizeFitsInBits max_char;
      if 32 <=? height then UB else
      do src <- foldM (fun nodes v => wt_insert_signed height nodes 1 v) l (repeat bv_default (2 ^ height - 1));
      do nodes <- mapM (sb_build false) src;
      Ok (WT height (wrap64 (max_char + 1)) nodes)
  end.

(** DacVector.hpp:249-295: all uses of an element convert it (calc.hpp:49 and DacVector.hpp:279) *)
Definition dac_of_signed (l : list Z) (unit_bit_list : list nat) : res dac := dac_of_list (map to_word l) unit_bit_list.
(** CDRWArray.hpp:27-32: set takes an id_type *)
Definition cdrw_of_signed (l : list Z) : res cdrw := cdrw_of_list (map to_word l).
