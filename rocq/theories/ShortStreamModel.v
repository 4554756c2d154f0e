(** Model of the readers of basic.hpp:79-100 and of the Read members on streams of any length, which may end too early.
    A stream is the list of the bytes left and whether it is good(). basic.hpp:81-86 returns an indeterminate value when the
    bytes do not suffice, which is [UB]; basic.hpp:88-93 keeps what the resized vector held in the bytes not read and leaves
    a failed stream behind. Allocation is taken to succeed whatever the size. Writers as in StreamModel. *)
From Coq Require Import List NArith ZArith Arith Bool.
From Verif Require Import Base Spec BitUtilModel BitVectorModel SuccinctModel FitVectorModel DacModel WaveletModel StreamModel SamcModel StringStreamModel.
Import ListNotations.
Local Open Scope nat_scope.

Definition stream : Type := (list N * bool)%type.
Definition sreader (A : Type) : Type := stream -> res (A * stream).
Definition sret {A} (a : A) : sreader A := fun s => Ok (a, s).
Definition sbind {A B} (p : sreader A) (f : A -> sreader B) : sreader B := fun s => do r <- p s; f (fst r) (snd r).
Notation "'rd' x <- m ; k" := (sbind m (fun x => k)) (at level 60, x pattern, right associativity).
Fixpoint s_rep {A} (n : nat) (p : sreader A) : sreader (list A) :=
  match n with O => sret [] | S n => rd a <- p; rd l <- s_rep n p; sret (a :: l) end.

(** basic.hpp:81-86 for an unsigned integer of [n] bytes *)
Definition s_val (n : nat) : sreader N := fun s =>
  if snd s && (n <=? length (fst s)) then Ok (le_value (firstn n (fst s)), (skipn n (fst s), true)) else UB.
Definition s_size : sreader nat := rd n <- s_val 8; sret (N.to_nat n).
Fixpoint chunks (sz n : nat) (l : list N) : list (list N) :=
  match n with O => [] | S n => firstn sz l :: chunks sz n (skipn sz l) end.
(** basic.hpp:88-93 into a vector which holds [old]; [sz] is sizeof(T), [enc] the bytes of an element, [d] T() *)
Definition s_vec {A} (sz : nat) (enc : A -> list N) (dec : list N -> A) (d : A) (old : list A) : sreader (list A) :=
  rd n <- s_size;
  fun s => let l := fst s in
    if sz * n <=? length l then Ok (map dec (chunks sz n l), (skipn (sz * n) l, true))
    else Ok (map dec (chunks sz n (l ++ skipn (length l) (concat (map enc (lresize old n d))))), ([], false)).
(** a vector of unsigned integers of [n] bytes *)
Definition s_ints (n : nat) (old : list N) : sreader (list N) := s_vec n (write_val n) le_value 0%N old.
(** basic.hpp:95-100; the string is made of zeros first *)
Definition s_string : sreader (list N) := s_vec 1 (fun c => [c]) (hd 0%N) 0%N [].

(** BitVector.hpp:250-253 *)
Definition s_bv (target : bitvec) : sreader bitvec := rd n <- s_size; rd ws <- s_ints 8 (bv_words target); sret (BV n ws).
(** SuccinctBitVector.hpp:64-69 *)
Definition s_sb (us : bool) (target : sbv) : sreader sbv :=
  rd b <- s_bv (sb_bits target); rd block <- s_ints 8 (sb_block target);
  rd tips <- (if us then s_ints 4 (sb_tips target) else sret (sb_tips target)); sret (SBV b block tips).
(** FitVector.hpp:64-67, a constructor *)
Definition s_fv : sreader fitvec :=
  rd w <- s_size;
  rd _ <- (fun s => do m <- WidthMask (N.of_nat w); Ok (m, s));
  rd n <- s_size; rd ws <- s_ints 8 []; sret (FV w n ws).
(** DacVector.hpp:193-213 *)
Definition s_dac : sreader dac :=
  rd n <- s_size; rd us <- s_rep n s_size; rd ls <- s_rep n s_fv;
  rd ps <- (if 1 <? n then s_rep (n - 1) (s_sb false sb_default) else sret []);
  sret (Dac (Some n) us ls ps).
(** WaveletTree.hpp:127-133; the third number is size_ *)
Fixpoint s_nodes (target : list sbv) : sreader (list sbv) :=
  match target with [] => sret [] | n :: l => rd a <- s_sb false n; rd r <- s_nodes l; sret (a :: r) end.
Definition s_wt (target : wavelet) : sreader (wavelet * N) :=
  rd h <- s_size; rd lf <- s_val 8; rd z <- s_val 8; rd ns <- s_nodes (wt_nodes target); sret (WT h lf ns, z).
(** std::array<code_type, 256> *)
Definition row_dec (cw : nat) (l : list N) : list N := map le_value (chunks cw 256 l).
(** Samc.hpp:104-108, 303-305 *)
Definition s_samc (cw : nat) (target : samc) : sreader samc :=
  rd st <- s_ints 1 (sm_storage target);
  rd codes <- s_vec (256 * cw) (row_write cw) (row_dec cw) (repeat 0%N 256) (sm_codes target);
  rd head <- s_ints cw (map N.of_nat (sm_head target));
  sret {| sm_storage := st; sm_codes := codes; sm_head := map N.to_nat head |}.
(** Samc.hpp:389-392, 425-427 *)
Definition s_dict (cw : nat) (target : samc_dict) : sreader samc_dict :=
  rd s <- s_samc cw (sd_samc target); rd l <- s_sb true (sd_leaves target); sret {| sd_samc := s; sd_leaves := l |}.
(** SuffixArray.hpp:60-64 *)
Definition s_sufarr : sreader (list N * (fitvec * fitvec)) := rd s <- s_string; rd a <- s_fv; rd l <- s_fv; sret (s, (a, l)).

(** For the statements: what the last array of each structure held before reading, as bytes, when it is resized for the object read *)
Definition last_old {A} (t : A -> list N) (l : list A) : list N := match rev l with [] => [] | x :: _ => t x end.
Definition bv_old (target v : bitvec) : list N := concat (map (write_val 8) (lresize (bv_words target) (length (bv_words v)) 0%N)).
Definition sb_old (us : bool) (target s : sbv) : list N :=
  if us then concat (map (write_val 4) (lresize (sb_tips target) (length (sb_tips s)) 0%N)) else concat (map (write_val 8) (lresize (sb_block target) (length (sb_block s)) 0%N)).
Definition fv_old (v : fitvec) : list N := repeat 0%N (8 * length (fv_words v)).
Definition dac_old (d : dac) : list N := match dac_paths d with [] => last_old fv_old (dac_layers d) | _ => last_old (sb_old false sb_default) (dac_paths d) end.
Definition dac_n (d : dac) : nat := match dac_num d with Some n => n | None => 0 end.
(** the image written for a DacVector (DacVector.hpp:215-223) *)
Definition dac_image (d : dac) : list N := write_size (dac_n d) ++ concat (map write_size (dac_units d)) ++ concat (map fv_write (dac_layers d)) ++ concat (map (sb_write false) (dac_paths d)).
(** Read of a node leaves its select tips alone *)
Definition same_tips (target nodes : list sbv) : Prop := Forall2 (fun t s => sb_fits s /\ sb_tips s = sb_tips t) target nodes.
Definition nodes_old (target nodes : list sbv) : list N := match rev target, rev nodes with t :: _, s :: _ => sb_old false t s | _, _ => [] end.
(** the image of a WaveletTree (WaveletTree.hpp:135-141) whose size_ is the second component *)
Definition wt_image (x : wavelet * N) : list N := write_size (wt_height (fst x)) ++ write_val 8 (wt_leafs (fst x)) ++ write_val 8 (snd x) ++ concat (map (sb_write false) (wt_nodes (fst x))).
Definition samc_old (cw : nat) (target s : samc) : list N := concat (map (fun h => write_val cw (N.of_nat h)) (lresize (sm_head target) (length (sm_head s)) 0)).
Definition dict_old (target t : samc_dict) : list N := sb_old true (sd_leaves target) (sd_leaves t).
