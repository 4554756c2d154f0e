(** Model of DacVector.hpp:107-312 (IndexConstIterator, 23-104, is in IterModel.v).
    The loops over layers_, paths_ and layers_unit_bits_ walk the three vectors together, so the model
    recurses over the three lists; an entry that a loop would need beyond the end of a list is [UB]. *)
From Coq Require Import List NArith ZArith Arith Bool.
From Verif Require Import Base Spec BitUtilModel CalcModel BitVectorModel SuccinctModel FitVectorModel.
Import ListNotations.
Local Open Scope nat_scope.

(** DacVector.hpp:124-127; [None]: num_layers_ has not been initialised *)
Record dac := Dac { dac_num : option nat; dac_units : list nat; dac_layers : list fitvec; dac_paths : list sbv }.

(** DacVector.hpp:130 *)
Definition dac_default : dac := Dac (Some 0) (repeat 8 8) (repeat (fv_make 8) 8) (repeat sb_default 7).

(** DacVector.hpp:282-290, one value, from depth 1 on *)
Fixpoint dac_push_deep (units : list nat) (layers : list fitvec) (paths : list bitvec) (x : N) : res (list fitvec * list bitvec) :=
  match units with
  | [] => Ok (layers, paths)
  | u :: us =>
      match paths with
      | [] => UB
      | p :: ps =>
          let exist := (0 <? x)%N in
          do p' <- bv_push_back p exist;
          if negb exist then Ok (layers, p' :: ps) else
          match layers with
          | [] => UB
          | L :: Ls =>
              do m <- WidthMask (N.of_nat u);
              do L' <- fv_push_back L (N.land x m);
              do x' <- shr64 x (N.of_nat u);
              do r <- dac_push_deep us Ls ps x';
              Ok (L' :: fst r, p' :: snd r)
          end
      end
  end.

(** DacVector.hpp:278-291, one value *)
Definition dac_push (units : list nat) (st : list fitvec * list bitvec) (x : N) : res (list fitvec * list bitvec) :=
  let '(layers, paths) := st in
  match units, layers with
  | u0 :: us, L0 :: Ls =>
      do m <- WidthMask (N.of_nat u0);
      do L0' <- fv_push_back L0 (N.land x m);
      do x' <- shr64 x (N.of_nat u0);
      do r <- dac_push_deep us Ls paths x';
      Ok (L0' :: fst r, snd r)
  | _, _ => UB
  end.

(** DacVector.hpp:271-275: reads cf[t] for every layer. FitVector::reserve with width 0 asks for 2^58 words. *)
Fixpoint dac_reserve (cf : list nat) (units : list nat) (t : nat) : res unit :=
  match units with
  | [] => Ok tt
  | u :: us =>
      do c <- lget cf t;
      if (u =? 0) && negb (c =? 0) then Throw else dac_reserve cf us (t + u)
  end.

(** DacVector.hpp:261-295. With no layers, paths_src_ would need 2^64-1 entries. *)
Definition dac_build (units : list nat) (l : list N) : res dac :=
  match units with
  | [] => Throw
  | _ :: us =>
      do cf <- cummulative_frequency_list l;
      do _ <- dac_reserve cf units 0;
      do st <- foldM (dac_push units) l (map fv_make units, repeat bv_default (length us));
      do paths <- mapM (sb_build false) (snd st);
      Ok (Dac (Some (length units)) units (fst st) paths)
  end.

(** DacVector.hpp:249-259; [split] is split_positions_optimized_for_dac *)
Definition dac_of_list_gen (split : list N -> nat -> res (option (list nat))) (l : list N) (unit_bit_list : list nat) : res dac :=
  match l with
  | [] => Ok (Dac None [] [] [])
  | _ =>
      do units <- (match unit_bit_list with
                   | [] => do r <- split l 8; Ok (match r with Some u => u | None => [] end)
                   | _ => Ok unit_bit_list
                   end);
      dac_build units l
  end.
Definition dac_of_list := dac_of_list_gen split_positions.
(** with the stray iteration of split_positions left out (see CalcModel.split_positions_tolerant) *)
Definition dac_of_list_tolerant := dac_of_list_gen split_positions_tolerant.

(** DacVector.hpp:144 *)
Definition dac_size (d : dac) : res nat := do L <- lget (dac_layers d) 0; Ok (fv_size L).

(** DacVector.hpp:300-310, from depth 1 on *)
Fixpoint dac_get_deep (units : list nat) (layers : list fitvec) (paths : list sbv) (shift_bits i : nat) (value : N) : res N :=
  match units with
  | [] => Ok value
  | u :: us =>
      match paths with
      | [] => UB
      | p :: ps =>
          do b <- sb_get p i;
          if negb b then Ok value else
          do r <- sb_rank p i;
          match layers with
          | [] => UB
          | L :: Ls =>
              do unit <- fv_get L (N.to_nat r);
              do s <- shl64 unit (N.of_nat shift_bits);
              dac_get_deep us Ls ps (shift_bits + u) (N.to_nat r) (N.lor value s)
          end
      end
  end.

(** DacVector.hpp:298-312 *)
Definition dac_get (d : dac) (index : nat) : res N :=
  match dac_num d with
  | None => UB
  | Some n =>
      do L0 <- lget (dac_layers d) 0;
      do v <- fv_get L0 index;
      do u0 <- lget (dac_units d) 0;
      dac_get_deep (skipn 1 (firstn n (dac_units d))) (skipn 1 (dac_layers d)) (dac_paths d) u0 index v
  end.

(** DacVector.hpp:152-157 *)
Definition dac_at (d : dac) (index : nat) : res N :=
  do s <- dac_size d; if s <=? index then Throw else dac_get d index.

(** DacVector.hpp:171-179; [k] is num_layers - 1 - depth *)
Fixpoint dac_depth_loop (k : nat) (paths : list sbv) (depth i : nat) : res nat :=
  match k with
  | O => Ok depth
  | S k =>
      match paths with
      | [] => UB
      | p :: ps =>
          do b <- sb_get p i;
          if negb b then Ok depth else
          do r <- sb_rank p i;
          dac_depth_loop k ps (S depth) (N.to_nat r)
      end
  end.
(** With num_layers_ = 0 the bound num_layers() - 1 wraps. *)
Definition dac_depth (d : dac) (index : nat) : res nat :=
  match dac_num d with
  | None | Some O => UB
  | Some (S k) => dac_depth_loop k (dac_paths d) 0 index
  end.
