(** PatternModel with the comparisons of a character of the key with a character of the text (or of the key) counted.
    Everything returned is a pair: the number of comparisons, then what the function of PatternModel returns. *)
From Coq Require Import List NArith ZArith Arith Bool.
From Verif Require Import Base PatternModel FoModel.
Import ListNotations.
Local Open Scope nat_scope.

(** PatternMatching.hpp:57-59 *)
Fixpoint simple_pos_count (fuel : nat) (key text : list N) (i pos : nat) (k : nat) : res (nat * nat) :=
  match fuel with
  | O => Fuel
  | S fuel =>
      if pos <? length key then
        do a <- lget key pos; do b <- lget text (i + pos);
        if (a =? b)%N then simple_pos_count fuel key text i (S pos) (S k) else Ok (S k, pos)
      else Ok (k, pos)
  end.
(** PatternMatching.hpp:56-62 *)
Fixpoint simple_loop_count (fuel : nat) (key text : list N) (i k : nat) : res (nat * list nat) :=
  if length text - length key <? i then Ok (k, []) else
  match fuel with
  | O => Fuel
  | S fuel =>
      do p <- simple_pos_count (S (length key)) key text i 0 k;
      do r <- simple_loop_count fuel key text (S i) (fst p);
      Ok (fst r, if snd p =? length key then i :: snd r else snd r)
  end.
(** PatternMatching.hpp:50-64 *)
Definition match_simple_count (text key : list N) : res (nat * list nat) :=
  if length text <? length key then Ok (0, []) else simple_loop_count (S (length text)) key text 0 0.

(** PatternMatching.hpp:78-79 and 99-100 *)
Fixpoint kmp_back_count (fuel : nat) (mem : list N) (next : list Z) (c : N) (n : Z) (k : nat) : res (nat * Z) :=
  if (n =? -1)%Z then Ok (k, n) else
  do x <- lget mem (Z.to_nat n);
  if (x =? c)%N then Ok (S k, n) else
  match fuel with
  | O => Fuel
  | S fuel => do n <- lget next (Z.to_nat n); kmp_back_count fuel mem next c n (S k)
  end.
(** PatternMatching.hpp:77-85, one iteration; the comparison of line 81 counts as well *)
Definition kmp_fill_count (key : list N) (st : nat * (list Z * Z)) (i : nat) : res (nat * (list Z * Z)) :=
  let '(k, (next, n)) := st in
  do c <- lget key i;
  do r <- kmp_back_count (S (length key)) key next c n k;
  let '(k, n) := r in
  let n := (n + 1)%Z in
  do v <- (if i + 1 <? length key then
             do a <- lget key (i + 1); do b <- lget key (Z.to_nat n);
             if (a =? b)%N then do x <- lget next (Z.to_nat n); Ok (S k, x) else Ok (S k, n)
           else Ok (k, n));
  do next <- lset next (i + 1) (snd v);
  Ok (fst v, (next, n)).
(** PatternMatching.hpp:74-86 *)
Definition kmp_make_count (key : list N) : res (nat * list Z) :=
  do next <- lset (repeat 0%Z (length key + 1)) 0 (-1)%Z;
  do r <- foldM (kmp_fill_count key) (seq 0 (length key)) (0, (next, (-1)%Z));
  Ok (fst r, fst (snd r)).
(** PatternMatching.hpp:98-105 *)
Fixpoint kmp_loop_count (mem : list N) (m : nat) (next : list Z) (text : list N) (i : nat) (pos : Z) (k : nat) : res (nat * list nat) :=
  match text with
  | [] => Ok (k, [])
  | c :: text =>
      do p <- kmp_back_count (S m) mem next c pos k;
      let pos := (snd p + 1)%Z in
      do r <- kmp_loop_count mem m next text (S i) pos (fst p);
      Ok (fst r, if (pos =? Z.of_nat m)%Z then (i + 1 - m) :: snd r else snd r)
  end.
(** PatternMatching.hpp:94-107; the comparisons of the constructor and those of find_all *)
Definition match_kmp_count (beyond text key : list N) : res (nat * (nat * list nat)) :=
  do next <- kmp_make_count key;
  do r <- kmp_loop_count (key ++ beyond) (length key) (snd next) text 0 0%Z 0;
  Ok (fst next, r).

(** PatternMatching.hpp:138-141 *)
Fixpoint bm_back_count (key text : list N) (cnt pos1 k : nat) : res (nat * bool) :=
  match cnt with
  | O => Ok (k, true)
  | S j => do a <- lget key j; match pos1 with O => UB | S pos => do b <- lget text pos; if (a =? b)%N then bm_back_count key text j pos (S k) else Ok (S k, false) end
  end.
(** PatternMatching.hpp:135-145; the first component counts the windows *)
Fixpoint bm_loop_count (fuel : nat) (key text : list N) (skip : list nat) (i w k : nat) : res (nat * nat * list nat) :=
  if length text <=? i then Ok (w, k, []) else
  match fuel with
  | O => Fuel
  | S fuel =>
      do b <- bm_back_count key text (length key) (S i) k;
      do c <- lget text i; do x <- char_index c; do s <- lget skip x;
      do r <- bm_loop_count fuel key text skip (i + s) (S w) (fst b);
      let '(w, k, l) := r in
      Ok (w, k, if snd b then (i + 1 - length key) :: l else l)
  end.
(** PatternMatching.hpp:129-147 *)
Definition match_bm_count (text key : list N) : res (nat * nat * list nat) :=
  do skip <- bm_make key; bm_loop_count (S (length text)) key text skip (length key - 1) 0 0.

(** PatternMatching.hpp:304-308, 376-380 *)
Fixpoint sunday_pos_count (pats : list (nat * N)) (text : list N) (i pos k : nat) : res (nat * nat) :=
  match pats with
  | [] => Ok (k, pos)
  | p :: pats => do c <- lget text (i + fst p); if same_char (snd p) c then sunday_pos_count pats text i (S pos) (S k) else Ok (S k, pos)
  end.
(** PatternMatching.hpp:303-314 and 375-386 *)
Fixpoint sunday_loop_count (fuel : nat) (m : nat) (pats : list (nat * N)) (td1 : list nat) (shift : nat -> res nat) (text : list N) (i w k : nat) : res (nat * nat * list nat) :=
  if (N.of_nat i <=? wsub (N.of_nat (length text)) (N.of_nat m))%N then
    match fuel with
    | O => Fuel
    | S fuel =>
        do p <- sunday_pos_count pats text i 0 k;
        do r <- (if i + m =? length text then Ok (S w, fst p, []) else
                 do c <- lget text (i + m); do d1 <- lget td1 (N.to_nat c); do d2 <- shift (snd p);
                 sunday_loop_count fuel m pats td1 shift text (i + Nat.max d1 d2) (S w) (fst p));
        let '(w, k, l) := r in
        Ok (w, k, if snd p =? m then i :: l else l)
    end
  else Ok (w, k, []).
(** PatternMatching.hpp:297-316 *)
Definition match_qs_count (text key : list N) : res (nat * nat * list nat) :=
  do pats <- sunday_make key; do td1 <- qs_make key;
  sunday_loop_count (S (length text)) (length key) pats td1 (fun _ => Ok 0) text 0 0 0.
(** PatternMatching.hpp:370-388 *)
Definition match_ms_count (text key : list N) : res (nat * nat * list nat) :=
  do pats <- sunday_make key; do td1 <- qs_make key; do td2 <- ms_make key pats;
  sunday_loop_count (S (length text)) (length key) pats td1 (lget td2) text 0 0 0.

(** PatternMatching.hpp:172-173, counting the calls of image *)
Fixpoint bom_back_count (beyond : list N) (o : foracle) (text : list N) (cnt pos1 state k : nat) : res (nat * nat) :=
  match cnt with
  | O => Ok (k, 0)
  | S cnt =>
      match pos1 with
      | O => UB
      | S pos => do c <- lget text pos; do s <- fo_image beyond o state c;
                 match s with None => Ok (S k, S cnt) | Some s => bom_back_count beyond o text cnt pos s (S k) end
      end
  end.
(** PatternMatching.hpp:169-180 *)
Fixpoint bom_loop_count (fuel : nat) (beyond : list N) (o : foracle) (m : nat) (text : list N) (i w k : nat) : res (nat * nat * list nat) :=
  if i <? length text then
    match fuel with
    | O => Fuel
    | S fuel =>
        do r <- bom_back_count beyond o text m (S i) 0 k;
        if snd r =? 0 then do l <- bom_loop_count fuel beyond o m text (i + 1) (S w) (fst r); Ok (fst l, (i + 1 - m) :: snd l)
        else bom_loop_count fuel beyond o m text (i + snd r) (S w) (fst r)
    end
  else Ok (w, k, []).
(** PatternMatching.hpp:157-182 *)
Definition match_bom_count (fuel : nat) (beyond text key : list N) : res (nat * nat * list nat) :=
  do o <- fo_build fuel (rev key); bom_loop_count (S (length text)) beyond o (length key) text (length key - 1) 0 0.
