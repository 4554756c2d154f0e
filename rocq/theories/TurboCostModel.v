(** What TurboBom::find_all inspects: FoModel's tbom_loop with counters. The counters are no part of the code. *)
From Coq Require Import List NArith ZArith Arith Bool.
From Verif Require Import Base PatternModel FoModel PatternCostModel.
Import ListNotations.
Local Open Scope nat_scope.

(** PatternMatching.hpp:201-208, counting the comparisons of line 203 *)
Fixpoint tbom_kmp_count (mem : list N) (m : nat) (next : list Z) (text : list N) (pos : Z) (k : nat) : res (nat * Z) :=
  match text with
  | [] => Ok (k, pos)
  | c :: text => do p <- kmp_back_count (S m) mem next c pos k; tbom_kmp_count mem m next text (snd p + 1)%Z (fst p)
  end.
(** PatternMatching.hpp:220-238: the windows, the calls of image on line 224 and the comparisons of kmp_search on line 234 *)
Fixpoint tbom_loop_count (fuel : nat) (beyond mem : list N) (next : list Z) (o : foracle) (m : nat) (text : list N) (back critpos : Z) : res (nat * nat * nat * list nat) :=
  if (back <? Z.of_nat (length text))%Z then
    match fuel with
    | O => Fuel
    | S fuel =>
        if (back <? 0)%Z then UB else
        do r <- bom_back_count beyond o text m (S (Z.to_nat back)) 0 0;
        let begin := (back - Z.of_nat m + 1)%Z in
        if snd r =? 0 then
          do n <- lget next m;
          do s <- tbom_loop_count fuel beyond mem next o m text (back + Z.of_nat m - n)%Z (back + 1)%Z;
          let '(w, k, q, l) := s in
          Ok (S w, fst r + k, q, Z.to_nat begin :: l)
        else
          let pos := (begin + Z.of_nat (snd r))%Z in
          let prefix := if (critpos <? pos)%Z then 0%Z else (critpos - begin)%Z in
          let kb := Z.max pos critpos in
          if (Z.of_nat (length text) <? kb)%Z then Throw else
          do n <- tbom_kmp_count mem m next (firstn (Nat.div2 m) (skipn (Z.to_nat kb) text)) prefix 0;
          let critpos := (kb + Z.of_nat (Nat.div2 m))%Z in
          do s <- tbom_loop_count fuel beyond mem next o m text (critpos - snd n + Z.of_nat m - 1)%Z critpos;
          let '(w, k, q, l) := s in
          Ok (S w, fst r + k, fst n + q, l)
    end
  else Ok (0, 0, 0, []).
(** PatternMatching.hpp:187-240 *)
Definition match_tbom_count (fuel steps : nat) (beyond beyond_key text key : list N) : res (nat * nat * nat * list nat) :=
  do o <- fo_build fuel (rev key);
  do next <- kmp_make key;
  tbom_loop_count steps beyond (key ++ beyond_key) next o (length key) text (Z.of_nat (length key) - 1)%Z 0%Z.
