(** FitVector, DacVector and SuffixArray in a build with assertions on (NDEBUG not defined): the functions of FitVectorModel.v, DacModel.v and SuffixModel.v
    with the asserts of FitVector.hpp and bit_util.hpp. [Throw] stands for a failed assertion. [fv_get_d] and [fv_set_d] are in CHTDebugModel.v.
    The assertion of OffsetMask in BitVector, whose argument is a remainder modulo 64, is left out. *)
From Coq Require Import List NArith ZArith Arith Bool.
From Verif Require Import Base Spec BitUtilModel CalcModel BitVectorModel SuccinctModel FitVectorModel DacModel SuffixModel FoDebugModel CHTDebugModel SmallDebugModel.
Import ListNotations.
Local Open Scope nat_scope.

(** FitVector.hpp:54 with the assertion of bit_util.hpp:34 *)
Definition fv_make_d (w : nat) : res fitvec := do _ <- WidthMask_d (N.of_nat w); Ok (fv_make w).
(** FitVector.hpp:132-137 *)
Definition fv_resize_value_d (v : fitvec) (n : nat) (x : N) : res fitvec :=
  foldM (fun v i => fv_set_d v i x) (seq (fv_size v) (n - fv_size v)) (fv_resize v n).
(** FitVector.hpp:139-143 *)
Definition fv_assign_d (v : fitvec) (n : nat) (x : N) : res fitvec := foldM (fun v i => fv_set_d v i x) (seq 0 n) (fv_resize v n).
(** FitVector.hpp:149-152 *)
Definition fv_push_back_d (v : fitvec) (x : N) : res fitvec := let v := fv_resize v (fv_size v + 1) in fv_set_d v (fv_size v - 1) x.
(** FitVector.hpp:113-119; size() - 1 wraps when the vector is empty and is then not below the size *)
Definition fv_front_d (v : fitvec) : res N := fv_get_d v 0.
Definition fv_back_d (v : fitvec) : res N := if fv_size v =? 0 then Throw else fv_get_d v (fv_size v - 1).
(** FitVector.hpp:87-152 *)
Definition fv_step_d (v : fitvec) (o : fv_op) : res fitvec :=
  match o with
  | FVResize n => Ok (fv_resize v n)
  | FVResizeV n x => fv_resize_value_d v n x
  | FVAssign n x => fv_assign_d v n x
  | FVPush x => fv_push_back_d v x
  | FVWrite i x => fv_set_d v i x
  end.
(** construction with a width and a history *)
Definition fv_run_d (w : nat) (ops : list fv_op) : res fitvec := do v <- fv_make_d w; foldM fv_step_d ops v.
(** FitVector.hpp:69-75 *)
Definition fv_of_list_d (l : list N) : res fitvec := do w <- minimal_word_size l; do v <- fv_make_d w; foldM fv_push_back_d l v.

(** DacVector.hpp:282-290, one value, from depth 1 on *)
Fixpoint dac_push_deep_d (units : list nat) (layers : list fitvec) (paths : list bitvec) (x : N) : res (list fitvec * list bitvec) :=
  match units with
  | [] => Ok (layers, paths)
  | u :: us =>
      match paths with
      | [] => UB
      | p :: ps =>
          let exist := (0 <? x)%N in
          do p' <- bv_push_back p exist;
          if negb exist then Ok (layers, p' :: ps) else
          match layers with
          | [] => UB
          | L :: Ls =>
              do m <- WidthMask_d (N.of_nat u);
              do L' <- fv_push_back_d L (N.land x m);
              do x' <- shr64 x (N.of_nat u);
              do r <- dac_push_deep_d us Ls ps x';
              Ok (L' :: fst r, p' :: snd r)
          end
      end
  end.
(** DacVector.hpp:278-291, one value *)
Definition dac_push_d (units : list nat) (st : list fitvec * list bitvec) (x : N) : res (list fitvec * list bitvec) :=
  let '(layers, paths) := st in
  match units, layers with
  | u0 :: us, L0 :: Ls =>
      do m <- WidthMask_d (N.of_nat u0);
      do L0' <- fv_push_back_d L0 (N.land x m);
      do x' <- shr64 x (N.of_nat u0);
      do r <- dac_push_deep_d us Ls paths x';
      Ok (L0' :: fst r, snd r)
  | _, _ => UB
  end.
(** DacVector.hpp:261-295: the layers are constructed first *)
Definition dac_build_d (units : list nat) (l : list N) : res dac :=
  do layers <- mapM fv_make_d units;
  match units with
  | [] => Throw
  | _ :: us =>
      do cf <- cummulative_frequency_list l;
      do _ <- dac_reserve cf units 0;
      do st <- foldM (dac_push_d units) l (layers, repeat bv_default (length us));
      do paths <- mapM (sb_build false) (snd st);
      Ok (Dac (Some (length units)) units (fst st) paths)
  end.
(** DacVector.hpp:249-259, widths given *)
Definition dac_of_list_d (l : list N) (units : list nat) : res dac :=
  match l with [] => Ok (Dac None [] [] []) | _ => dac_build_d units l end.
(** DacVector.hpp:300-310, from depth 1 on *)
Fixpoint dac_get_deep_d (units : list nat) (layers : list fitvec) (paths : list sbv) (shift_bits i : nat) (value : N) : res N :=
  match units with
  | [] => Ok value
  | u :: us =>
      match paths with
      | [] => UB
      | p :: ps =>
          do b <- sb_get p i;
          if negb b then Ok value else
          do r <- sb_rank p i;
          match layers with
          | [] => UB
          | L :: Ls =>
              do unit <- fv_get_d L (N.to_nat r);
              do s <- shl64 unit (N.of_nat shift_bits);
              dac_get_deep_d us Ls ps (shift_bits + u) (N.to_nat r) (N.lor value s)
          end
      end
  end.
(** DacVector.hpp:298-312 *)
Definition dac_get_d (d : dac) (index : nat) : res N :=
  match dac_num d with
  | None => UB
  | Some n =>
      do L0 <- lget (dac_layers d) 0;
      do v <- fv_get_d L0 index;
      do u0 <- lget (dac_units d) 0;
      dac_get_deep_d (skipn 1 (firstn n (dac_units d))) (skipn 1 (dac_layers d)) (dac_paths d) u0 index v
  end.

(** string_util/SuffixArray.hpp:129-137 *)
Definition build_sa_d (s : list N) : res fitvec :=
  do sa <- sais (S (length s)) (sais_str s) 255;
  do sa <- mapM (fun x => match x with Some i => Ok (N.of_nat i) | None => Ok (2 ^ 64 - 1)%N end) sa;
  fv_of_list_d (tl sa).
(** string_util/SuffixArray.hpp:303-305 *)
Definition invert_sa_d (sa : fitvec) : res (list nat) :=
  foldM (fun inv i => do p <- fv_get_d sa i; cset inv p i) (seq 0 (fv_size sa)) (repeat 0 (fv_size sa)).
(** string_util/SuffixArray.hpp:309-312 *)
Definition lcp_step_d (s : list N) (sa : fitvec) (inv : list nat) (st : list nat * nat) (i : nat) : res (list nat * nat) :=
  let '(lcp, prev) := st in
  do pos <- lget inv i;
  do x <- (if pos =? length inv - 1 then Ok 0 else
           do r <- fv_get_d sa (pos + 1);
           let k := if 1 <? prev then prev - 1 else 0 in compare_lcp (S (length s)) s (i + k) (N.to_nat r + k) k);
  do lcp <- lset lcp pos x;
  Ok (lcp, x).
(** string_util/SuffixArray.hpp:301-339 *)
Definition build_lcp_d (s : list N) (sa : fitvec) : res fitvec :=
  do inv <- invert_sa_d sa;
  do r <- foldM (lcp_step_d s sa inv) (seq 0 (length inv)) (repeat 0 (fv_size sa), 0);
  do v <- fv_of_list_d (map N.of_nat (fst r));
  do _ <- lget (fst r) (fv_size sa / 2);
  Ok v.
(** string_util/SuffixArray.hpp:35-38 *)
Definition suffix_array_d (s : list N) : res (fitvec * fitvec) := do sa <- build_sa_d s; do lcp <- build_lcp_d s sa; Ok (sa, lcp).
