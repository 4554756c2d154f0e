(** Model of the stream functions of basic.hpp:79-123 and of the Read/Write/size_in_bytes members built on them.
    A stream is the list of the bytes still to be read (little endian); reading past the end, which leaves
    indeterminate values behind, is [UB]. The address of the first element of an empty vector (basic.hpp:112)
    is taken to be harmless: no byte is written through it. *)
From Coq Require Import List NArith ZArith Arith Bool.
From Verif Require Import Base Spec BitUtilModel BitVectorModel SuccinctModel FitVectorModel DacModel MultiBitModel WaveletModel.
Import ListNotations.
Local Open Scope nat_scope.

Definition parser (A : Type) : Type := list N -> res (A * list N).
Definition pret {A} (a : A) : parser A := fun s => Ok (a, s).
Definition pbind {A B} (p : parser A) (f : A -> parser B) : parser B := fun s => do r <- p s; f (fst r) (snd r).
Notation "'get' x <- m ; k" := (pbind m (fun x => k)) (at level 60, x pattern, right associativity).
Fixpoint prep {A} (n : nat) (p : parser A) : parser (list A) :=
  match n with O => pret [] | S n => get a <- p; get l <- prep n p; pret (a :: l) end.

(** The object representation of an unsigned integer of [n] bytes, and back *)
Fixpoint le_bytes (n : nat) (x : N) : list N :=
  match n with O => [] | S n => (x mod 256)%N :: le_bytes n (x / 256) end.
Fixpoint le_value (l : list N) : N := match l with [] => 0%N | b :: l => (b + 256 * le_value l)%N end.

Definition get_byte : parser N := fun s => match s with [] => UB | b :: s => Ok (b, s) end.

(** basic.hpp:81-86 for an unsigned integer of [n] bytes *)
Definition read_val (n : nat) : parser N := get l <- prep n get_byte; pret (le_value l).
(** basic.hpp:104-107 *)
Definition write_val (n : nat) (x : N) : list N := le_bytes n x.
Definition write_size (n : nat) : list N := write_val 8 (N.of_nat n).
Definition read_size : parser nat := get n <- read_val 8; pret (N.to_nat n).

(** basic.hpp:88-93, 109-113 for elements with the given representation *)
Definition read_vec {A} (p : parser A) : parser (list A) := get n <- read_size; prep n p.
Definition write_vec {A} (w : A -> list N) (l : list A) : list N := write_size (length l) ++ concat (map w l).
(** basic.hpp:120-123; [sz] is sizeof(T) *)
Definition size_vec {A} (sz : nat) (l : list A) : nat := sz * length l + 8.

(** basic.hpp:95-100, 115-118; a string is its list of bytes *)
Definition read_string : parser (list N) := get n <- read_size; prep n get_byte.
Definition write_string (l : list N) : list N := write_size (length l) ++ l.

(** BitVector.hpp:244-258 *)
Definition bv_write (v : bitvec) : list N := write_size (bv_size v) ++ write_vec (write_val 8) (bv_words v).
Definition bv_read : parser bitvec := get n <- read_size; get ws <- read_vec (read_val 8); pret (BV n ws).
Definition bv_size_in_bytes (v : bitvec) : nat := 8 + size_vec 8 (bv_words v).

(** SuccinctBitVector.hpp:56-76; Read leaves the select tips of the target alone unless UseSelect *)
Definition sb_write (us : bool) (s : sbv) : list N :=
  bv_write (sb_bits s) ++ write_vec (write_val 8) (sb_block s) ++ (if us then write_vec (write_val 4) (sb_tips s) else []).
Definition sb_read (us : bool) (target : sbv) : parser sbv :=
  get b <- bv_read; get block <- read_vec (read_val 8);
  get tips <- (if us then read_vec (read_val 4) else pret (sb_tips target));
  pret (SBV b block tips).
Definition sb_size_in_bytes (us : bool) (s : sbv) : nat :=
  bv_size_in_bytes (sb_bits s) + size_vec 8 (sb_block s) + (if us then size_vec 4 (sb_tips s) else 0).

(** FitVector.hpp:64-67 (the delegated constructor computes the mask, 54), 156-166 *)
Definition fv_write (v : fitvec) : list N :=
  write_size (fv_width v) ++ write_size (fv_size v) ++ write_vec (write_val 8) (fv_words v).
Definition fv_read : parser fitvec :=
  get w <- read_size;
  get _ <- (fun s => do m <- WidthMask (N.of_nat w); Ok (m, s));
  get n <- read_size; get ws <- read_vec (read_val 8); pret (FV w n ws).
Definition fv_size_in_bytes (v : fitvec) : nat := 16 + size_vec 8 (fv_words v).

(** DacVector.hpp:215-223; an uninitialised num_layers_ is [UB] *)
Definition dac_write (d : dac) : res (list N) :=
  match dac_num d with
  | None => UB
  | Some n => Ok (write_size n ++ concat (map write_size (dac_units d)) ++ concat (map fv_write (dac_layers d)) ++
                  concat (map (sb_write false) (dac_paths d)))
  end.
(** DacVector.hpp:193-213 *)
Definition dac_read : parser dac :=
  get n <- read_size; get us <- prep n read_size; get ls <- prep n fv_read;
  get ps <- (if 1 <? n then prep (n - 1) (sb_read false sb_default) else pret []);
  pret (Dac (Some n) us ls ps).
(** DacVector.hpp:181-191; the loops read layers_[i] and paths_[i] *)
Definition dac_size_in_bytes (d : dac) : res nat :=
  match dac_num d with
  | None => UB
  | Some n =>
      do a <- foldM (fun s i => do L <- lget (dac_layers d) i; Ok (s + fv_size_in_bytes L)) (seq 0 n) (8 + size_vec 8 (dac_units d));
      foldM (fun s i => do p <- lget (dac_paths d) i; Ok (s + sb_size_in_bytes false p)) (seq 0 (n - 1)) a
  end.

(** MultiBitVector.hpp:33-36 RankTip: L1, the bytes of L2, padding to a multiple of 8 (written as zeros here) *)
Definition tip_pad (U : nat) : nat := if U =? 2 then 0 else 4.
Definition tip_write (U : nat) (t : tip) : list N := write_val 8 (tip_L1 t) ++ tip_L2 t ++ repeat 0%N (tip_pad U).
Definition tip_read (U : nat) : parser tip :=
  get l1 <- read_val 8; get l2 <- prep (kBlocksInTipSize U) get_byte; get _ <- prep (tip_pad U) get_byte; pret (Tip l1 l2).
(** MultiBitVector.hpp:165-182 *)
Definition mb_write (U : nat) (v : multibit) : list N :=
  write_vec (write_val 8) (mb_bits v) ++ concat (map (write_vec (tip_write U)) (mb_tips v)).
Definition mb_read (U : nat) : parser multibit :=
  get b <- read_vec (read_val 8); get ts <- prep (kMaxNumTypes U) (read_vec (tip_read U)); pret (MB b ts).
Definition mb_size_in_bytes (U : nat) (v : multibit) : nat :=
  size_vec 8 (mb_bits v) + list_sum_nat (map (size_vec (8 + kBlocksInTipSize U + tip_pad U)) (mb_tips v)).

(** WaveletTree.hpp:120-141 (size_ is 0 in every object); Read reads into the nodes the target already has *)
Definition wt_write (t : wavelet) : list N :=
  write_size (wt_height t) ++ write_val 8 (wt_leafs t) ++ write_size 0 ++ concat (map (sb_write false) (wt_nodes t)).
Fixpoint wt_read_nodes (target : list sbv) : parser (list sbv) :=
  match target with [] => pret [] | n :: l => get a <- sb_read false n; get r <- wt_read_nodes l; pret (a :: r) end.
Definition wt_read (target : wavelet) : parser wavelet :=
  get h <- read_size; get lf <- read_val 8; get _ <- read_size;
  get ns <- wt_read_nodes (wt_nodes target); pret (WT h lf ns).
Definition wt_size_in_bytes (t : wavelet) : nat := 24 + list_sum_nat (map (sb_size_in_bytes false) (wt_nodes t)).

(** The values the fields can hold: words below 2^64, sizes below 2^64, uint32_t tips, uint8_t L2 entries. *)
Definition word_fits (x : N) : Prop := (x < 2 ^ 64)%N.
Definition size_fits (n : nat) : Prop := (N.of_nat n < 2 ^ 64)%N.
Definition bv_fits (v : bitvec) : Prop := size_fits (bv_size v) /\ size_fits (length (bv_words v)) /\ Forall word_fits (bv_words v).
Definition sb_fits (s : sbv) : Prop :=
  bv_fits (sb_bits s) /\ size_fits (length (sb_block s)) /\ Forall word_fits (sb_block s) /\
  size_fits (length (sb_tips s)) /\ Forall (fun x => (x < 2 ^ 32)%N) (sb_tips s).
Definition fv_fits (v : fitvec) : Prop :=
  size_fits (fv_width v) /\ size_fits (fv_size v) /\ size_fits (length (fv_words v)) /\ Forall word_fits (fv_words v).
Definition tip_fits (U : nat) (t : tip) : Prop :=
  word_fits (tip_L1 t) /\ length (tip_L2 t) = 4 * U /\ Forall (fun x => (x < 256)%N) (tip_L2 t).
Definition mb_fits (U : nat) (v : multibit) : Prop :=
  size_fits (length (mb_bits v)) /\ Forall word_fits (mb_bits v) /\ length (mb_tips v) = 2 ^ U /\
  Forall (fun ts => size_fits (length ts) /\ Forall (tip_fits U) ts) (mb_tips v).
(** the three vectors of a DacVector have the lengths given by num_layers_ (not so in a default-constructed one) *)
Definition dac_shape (d : dac) : Prop :=
  exists n, dac_num d = Some n /\ length (dac_units d) = n /\ length (dac_layers d) = n /\ length (dac_paths d) = n - 1.
Definition dac_fits (d : dac) : Prop :=
  size_fits (length (dac_units d)) /\ Forall size_fits (dac_units d) /\
  Forall (fun L => fv_fits L /\ fv_width L < 64) (dac_layers d) /\ Forall (fun p => sb_fits p /\ sb_tips p = []) (dac_paths d).
Definition wt_fits (t : wavelet) : Prop :=
  size_fits (wt_height t) /\ word_fits (wt_leafs t) /\ Forall (fun p => sb_fits p /\ sb_tips p = []) (wt_nodes t).
