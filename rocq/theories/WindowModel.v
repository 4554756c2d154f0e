(** Model of TurboBom::find_all with the floating point product which gives the size of its windows. *)
From Coq Require Import List NArith ZArith Arith Bool.
From Verif Require Import Base PatternModel FoModel.
Import ListNotations.
Local Open Scope nat_scope.

(** the conversion of a whole number to float: IEEE binary32, to nearest, ties to even; below 2^64 it does not overflow *)
Definition to_float (x : N) : N :=
  (if N.size x <=? 24 then x else
   let u := 2 ^ (N.size x - 24) in let q := x / u in let r := x mod u in
   if 2 * r <? u then q * u else if u <? 2 * r then (q + 1) * u else if N.even q then q * u else (q + 1) * u)%N.
(** PatternMatching.hpp:193, 214-215: kAlpha is one half; the product with it is exact, its conversion to long long drops the fraction *)
Definition kKmpWindowSize (m : nat) : nat := N.to_nat (to_float (N.of_nat m) / 2).

(** PatternMatching.hpp:220-238, as FoModel.tbom_loop with kKmpWindowSize = [h] *)
Fixpoint wbom_loop (h fuel : nat) (beyond mem : list N) (next : list Z) (o : foracle) (m : nat) (text : list N) (back critpos : Z) : res (list nat) :=
  if (back <? Z.of_nat (length text))%Z then
    match fuel with
    | O => Fuel
    | S fuel =>
        if (back <? 0)%Z then UB else
        do r <- bom_back beyond o text m (S (Z.to_nat back)) 0;
        let begin := (back - Z.of_nat m + 1)%Z in
        if r =? 0 then
          do n <- lget next m;
          do l <- wbom_loop h fuel beyond mem next o m text (back + Z.of_nat m - n)%Z (back + 1)%Z;
          Ok (Z.to_nat begin :: l)
        else
          let pos := (begin + Z.of_nat r)%Z in
          let prefix := if (critpos <? pos)%Z then 0%Z else (critpos - begin)%Z in
          let kb := Z.max pos critpos in
          if (Z.of_nat (length text) <? kb)%Z then Throw else
          do n <- tbom_kmp mem m next (firstn h (skipn (Z.to_nat kb) text)) prefix;
          let critpos := (kb + Z.of_nat h)%Z in
          wbom_loop h fuel beyond mem next o m text (critpos - n + Z.of_nat m - 1)%Z critpos
    end
  else Ok [].
(** PatternMatching.hpp:187-240 with windows of [h] characters, and as it is *)
Definition match_wbom (h fuel steps : nat) (beyond beyond_key text key : list N) : res (list nat) :=
  do o <- fo_build fuel (rev key);
  do next <- kmp_make key;
  wbom_loop h steps beyond (key ++ beyond_key) next o (length key) text (Z.of_nat (length key) - 1)%Z 0%Z.
Definition match_fbom (fuel steps : nat) (beyond beyond_key text key : list N) : res (list nat) :=
  match_wbom (kKmpWindowSize (length key)) fuel steps beyond beyond_key text key.
