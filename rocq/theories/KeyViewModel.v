(** Model of string_util/PatternMatching.hpp, the matchers as objects: PatternModel.v and FoModel.v run a constructor and one search with the
    key unchanged in between. Here the members are kept apart from what is read through key_ during a search. *)
From Coq Require Import List NArith ZArith Arith Bool.
From Verif Require Import Base PatternModel FoModel.
Import ListNotations.
Local Open Scope nat_scope.

(** the members besides key_.data(), with m = key_.size(). PatternMatching.hpp:31 and 42 (none), 71, 114, 154, 189, 248 and 280, 321 *)
Inductive matcher :=
| MSimple (m : nat)
| MKmp (m : nat) (next : list Z)
| MBm (m : nat) (skip : list nat)
| MBom (m : nat) (o : foracle)
| MTurbo (m : nat) (o : foracle) (next : list Z)
| MQs (m : nat) (pats : list (nat * N)) (td1 : list nat)
| MMs (m : nat) (pats : list (nat * N)) (td1 td2 : list nat).
(** PatternMatching.hpp:44 *)
Definition make_simple (key : list N) : res matcher := Ok (MSimple (length key)).
(** PatternMatching.hpp:74-86 *)
Definition make_kmp (key : list N) : res matcher := do next <- kmp_make key; Ok (MKmp (length key) next).
(** PatternMatching.hpp:117-121 *)
Definition make_bm (key : list N) : res matcher := do skip <- bm_make key; Ok (MBm (length key) skip).
(** PatternMatching.hpp:157 *)
Definition make_bom (fuel : nat) (key : list N) : res matcher := do o <- fo_build fuel (rev key); Ok (MBom (length key) o).
(** PatternMatching.hpp:196 *)
Definition make_turbo (fuel : nat) (key : list N) : res matcher := do o <- fo_build fuel (rev key); do next <- kmp_make key; Ok (MTurbo (length key) o next).
(** PatternMatching.hpp:251-268 and 284-289 *)
Definition make_qs (key : list N) : res matcher := do pats <- sunday_make key; do td1 <- qs_make key; Ok (MQs (length key) pats td1).
(** PatternMatching.hpp:325-361 *)
Definition make_ms (key : list N) : res matcher :=
  do pats <- sunday_make key; do td1 <- qs_make key; do td2 <- ms_make key pats; Ok (MMs (length key) pats td1 td2).

(** PatternMatching.hpp:57-59; [mem] is what can be read through key_, nothing after the key was freed *)
Fixpoint simple_pos_v (fuel m : nat) (mem text : list N) (i pos : nat) : res nat :=
  match fuel with
  | O => Fuel
  | S fuel =>
      if pos <? m then
        do a <- lget mem pos; do b <- lget text (i + pos);
        if (a =? b)%N then simple_pos_v fuel m mem text i (S pos) else Ok pos
      else Ok pos
  end.
(** PatternMatching.hpp:56-62 *)
Fixpoint simple_loop_v (fuel m : nat) (mem text : list N) (i : nat) : res (list nat) :=
  if length text - m <? i then Ok [] else
  match fuel with
  | O => Fuel
  | S fuel =>
      do pos <- simple_pos_v (S m) m mem text i 0;
      do r <- simple_loop_v fuel m mem text (S i);
      Ok (if pos =? m then i :: r else r)
  end.
(** PatternMatching.hpp:135-145 *)
Fixpoint bm_loop_v (fuel m : nat) (mem text : list N) (skip : list nat) (i : nat) : res (list nat) :=
  if length text <=? i then Ok [] else
  match fuel with
  | O => Fuel
  | S fuel =>
      do b <- bm_back mem text m (S i);
      do c <- lget text i; do x <- char_index c; do s <- lget skip x;
      do r <- bm_loop_v fuel m mem text skip (i + s);
      Ok (if b then (i + 1 - m) :: r else r)
  end.
(** find_all, PatternMatching.hpp:50-64, 94-107, 129-147, 163-182, 212-240, 297-316, 369-388; [beyond] are the bytes behind the array of an
    oracle, [steps] bounds the windows of TurboBom *)
Definition find_all (steps : nat) (beyond mem : list N) (x : matcher) (text : list N) : res (list nat) :=
  match x with
  | MSimple m => if length text <? m then Ok [] else simple_loop_v (S (length text)) m mem text 0
  | MKmp m next => kmp_loop mem m next text 0 0%Z
  | MBm m skip => bm_loop_v (S (length text)) m mem text skip (m - 1)
  | MBom m o => bom_loop (S (length text)) beyond o m text (m - 1)
  | MTurbo m o next => tbom_loop steps beyond mem next o m text (Z.of_nat m - 1)%Z 0%Z
  | MQs m pats td1 => sunday_loop (S (length text)) m pats td1 (fun _ => Ok 0) text 0
  | MMs m pats td1 td2 => sunday_loop (S (length text)) m pats td1 (lget td2) text 0
  end.
