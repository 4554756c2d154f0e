(** Model of Read and Write of MultiBitVector with the padding bytes of RankTip, which have any value, on streams of any length.
    Streams and readers as in ShortStreamModel. *)
From Coq Require Import List NArith ZArith Arith Bool.
From Verif Require Import Base Spec BitUtilModel MultiBitModel StreamModel ShortStreamModel.
Import ListNotations.
Local Open Scope nat_scope.

(** MultiBitVector.hpp:33-36: a RankTip as it lies in memory, the members and the padding behind L2 *)
Definition ptip : Type := (tip * list N)%type.
(** MultiBitVector.hpp:31-37 *)
Record pmulti := PMB { pm_bits : list N; pm_tips : list (list ptip) }.
(** the members alone *)
Definition pm_members (p : pmulti) : multibit := MB (pm_bits p) (map (map fst) (pm_tips p)).

(** basic.hpp:109-113 write the bytes of each element *)
Definition ptip_write (t : ptip) : list N := write_val 8 (tip_L1 (fst t)) ++ tip_L2 (fst t) ++ snd t.
(** basic.hpp:88-93 overwrite them *)
Definition ptip_dec (U : nat) (c : list N) : ptip :=
  (Tip (le_value (firstn 8 c)) (firstn (kBlocksInTipSize U) (skipn 8 c)), skipn (kBlocksInTipSize U) (skipn 8 c)).
(** the value-initialized RankTip of vector::resize, zeros in the padding as well *)
Definition ptip_zero (U : nat) : ptip := (Tip 0%N (repeat 0%N (kBlocksInTipSize U)), repeat 0%N (tip_pad U)).
Definition ptip_size (U : nat) : nat := 8 + kBlocksInTipSize U + tip_pad U.

(** MultiBitVector.hpp:178-182 *)
Definition pm_write (p : pmulti) : list N := write_vec (write_val 8) (pm_bits p) ++ concat (map (write_vec ptip_write) (pm_tips p)).
(** MultiBitVector.hpp:172-176 into a vector which holds [target] *)
Definition s_tips (U : nat) (old : list ptip) : sreader (list ptip) := s_vec (ptip_size U) ptip_write (ptip_dec U) (ptip_zero U) old.
Fixpoint s_tiparrays (U : nat) (target : list (list ptip)) : sreader (list (list ptip)) :=
  match target with [] => sret [] | o :: l => rd a <- s_tips U o; rd r <- s_tiparrays U l; sret (a :: r) end.
Definition s_mb (U : nat) (target : pmulti) : sreader pmulti :=
  rd b <- s_ints 8 (pm_bits target); rd ts <- s_tiparrays U (pm_tips target); sret (PMB b ts).

(** For the statements: the values the bytes can hold, and the bytes of the last array of [target] when it is resized for [p] *)
Definition ptip_fits (U : nat) (t : ptip) : Prop := tip_fits U (fst t) /\ length (snd t) = tip_pad U /\ Forall (fun b => (b < 256)%N) (snd t).
Definition pm_fits (U : nat) (p : pmulti) : Prop :=
  size_fits (length (pm_bits p)) /\ Forall word_fits (pm_bits p) /\ length (pm_tips p) = 2 ^ U /\
  Forall (fun ts => size_fits (length ts) /\ Forall (ptip_fits U) ts) (pm_tips p).
Definition tips_old (U : nat) (target now : list (list ptip)) : list N :=
  match rev target, rev now with o :: _, l :: _ => concat (map ptip_write (lresize o (length l) (ptip_zero U))) | _, _ => [] end.
