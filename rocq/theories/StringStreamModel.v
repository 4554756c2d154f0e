(** Model of Read, Write and size_in_bytes of Samc, SamcDict (string_util/Samc.hpp) and of SuffixArray (string_util/SuffixArray.hpp).
    [cw] is sizeof(code_type). Streams as in StreamModel. *)
From Coq Require Import List NArith ZArith Arith Bool.
From Verif Require Import Base BitUtilModel BitVectorModel SuccinctModel FitVectorModel StreamModel SuffixModel SamcModel.
Import ListNotations.
Local Open Scope nat_scope.

(** std::array<code_type, 256>: its 256 elements without padding *)
Definition row_write (cw : nat) (row : list N) : list N := concat (map (write_val cw) row).
Definition row_read (cw : nat) : parser (list N) := prep 256 (read_val cw).
(** Samc.hpp:98-102, 299-301 *)
Definition samc_write (cw : nat) (s : samc) : list N :=
  write_vec (write_val 1) (sm_storage s) ++ write_vec (row_write cw) (sm_codes s) ++ write_vec (fun h => write_val cw (N.of_nat h)) (sm_head s).
(** Samc.hpp:104-108, 303-305 *)
Definition samc_read (cw : nat) : parser samc :=
  get st <- read_vec (read_val 1); get codes <- read_vec (row_read cw); get head <- read_vec (read_val cw);
  pret {| sm_storage := st; sm_codes := codes; sm_head := map N.to_nat head |}.
(** Samc.hpp:91-96 *)
Definition samc_size_in_bytes (cw : nat) (s : samc) : nat :=
  size_vec 1 (sm_storage s) + size_vec (256 * cw) (sm_codes s) + size_vec cw (sm_head s).
(** Samc.hpp:384-387, 421-423 *)
Definition dict_write (cw : nat) (t : samc_dict) : list N := samc_write cw (sd_samc t) ++ sb_write true (sd_leaves t).
(** Samc.hpp:389-392, 425-427 *)
Definition dict_read (cw : nat) (target : samc_dict) : parser samc_dict :=
  get s <- samc_read cw; get l <- sb_read true (sd_leaves target); pret {| sd_samc := s; sd_leaves := l |}.
(** Samc.hpp:382, 419 *)
Definition dict_size_in_bytes (cw : nat) (t : samc_dict) : nat := samc_size_in_bytes cw (sd_samc t) + sb_size_in_bytes true (sd_leaves t).

(** SuffixArray.hpp:66-70 for the string and the two arrays *)
Definition sufarr_write (s : list N) (a : fitvec * fitvec) : list N := write_string s ++ fv_write (fst a) ++ fv_write (snd a).
(** SuffixArray.hpp:60-64 *)
Definition sufarr_read : parser (list N * (fitvec * fitvec)) :=
  get s <- read_string; get a <- fv_read; get l <- fv_read; pret (s, (a, l)).
(** SuffixArray.hpp:44-46 with string_view::substr: throws behind the end *)
Definition suffix_sub (s : list N) (index size : nat) : res (list N) :=
  if length s <? index then Throw else Ok (firstn size (skipn index s)).
(** SuffixArray.hpp:48-50; the difference is a size_t *)
Definition suffix_from (s : list N) (index : nat) : res (list N) :=
  suffix_sub s index (N.to_nat (wsub (N.of_nat (length s)) (N.of_nat index))).

(** The values the fields can hold *)
Definition samc_fits (cw : nat) (s : samc) : Prop :=
  size_fits (length (sm_storage s)) /\ Forall (fun b => (b < 256)%N) (sm_storage s) /\
  size_fits (length (sm_codes s)) /\ Forall (fun row => length row = 256 /\ Forall (fun c => (c < 2 ^ N.of_nat (8 * cw))%N) row) (sm_codes s) /\
  size_fits (length (sm_head s)) /\ Forall (fun h => (N.of_nat h < 2 ^ N.of_nat (8 * cw))%N) (sm_head s).
