(** How long Kmp::find_all spends on each single character of the text. *)
From Coq Require Import List NArith ZArith Arith Bool.
From Verif Require Import Base PatternModel PatternCostModel.
Import ListNotations.
Local Open Scope nat_scope.

(** PatternMatching.hpp:98-105: for each character of the text the comparisons of line 99 made with it *)
Fixpoint kmp_delays (mem : list N) (m : nat) (next : list Z) (text : list N) (pos : Z) : res (list nat) :=
  match text with
  | [] => Ok []
  | c :: text =>
      do p <- kmp_back_count (S m) mem next c pos 0;
      do r <- kmp_delays mem m next text (snd p + 1)%Z;
      Ok (fst p :: r)
  end.
(** PatternMatching.hpp:94-107 with the key followed by the bytes [beyond] *)
Definition match_kmp_delays (beyond text key : list N) : res (list nat) :=
  do next <- kmp_make key; kmp_delays (key ++ beyond) (length key) next text 0%Z.
