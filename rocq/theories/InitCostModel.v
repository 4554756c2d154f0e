(** The functions of InitArrayModel.v once more, with the accesses to elements counted: for InitializableArrayFolklore
    those to fv_ and t_ (a pair of fv_ counts once per member access), for _InitializableArray those to a_.
    InitCost.v proves that leaving out the counters gives InitArrayModel.v. *)
From Coq Require Import List NArith ZArith Arith Bool.
From Verif Require Import Base Spec3 CostBase InitArrayModel.
Import ListNotations.
Local Open Scope nat_scope.

Section Folklore.
Context {A : Type}.
(** InitializableArray.hpp:57-60 *)
Definition fk_is_chained_c (s : folklore A) (i : nat) : cres bool :=
  count p <- paid (lget (fk_fv s) i);
  if fst p <? length (fk_t s) then count x <- paid (lget (fk_t s) (fst p)); cret (x =? i) else cret false.
(** InitializableArray.hpp:32-34 *)
Definition fk_get_c (s : folklore A) (i : nat) : cres A :=
  count c <- fk_is_chained_c s i; if (c : bool) then count p <- paid (lget (fk_fv s) i); cret (snd p) else cret (fk_init s).
(** InitializableArray.hpp:36-42: three writes; the modelled read of the pair belongs to the write of one member *)
Definition fk_set_c (s : folklore A) (i : nat) (val : A) : cres (folklore A) :=
  count c <- fk_is_chained_c s i;
  count s <- (if (c : bool) then cret s
              else count p <- free (lget (fk_fv s) i); count fv <- paid (lset (fk_fv s) i (length (fk_t s), snd p));
                   count t <- paid (Ok (fk_t s ++ [i])); cret (Folk (fk_init s) fv t));
  count p <- free (lget (fk_fv s) i); count fv <- paid (lset (fk_fv s) i (fst p, val)); cret (Folk (fk_init s) fv (fk_t s)).
(** InitializableArray.hpp:45-52; clear() of a vector of integers only sets its size *)
Definition fk_fill_c (s : folklore A) (v : A) : cres (folklore A) := cret (Folk v (fk_fv s) []).
End Folklore.

Section InPlace.
Variables (w : N) (next : N -> res nat) (size : nat).
(** InitializableArray.hpp:91: a_ is left uninitialised *)
Definition ia_make_c (mem : list N) (v : N) : cres inplace := cret (IA v 0 mem).
(** InitializableArray.hpp:175-183 *)
Definition ia_to_c (s : inplace) (i : nat) : cres N := paid (lget (ia_a s) i).
Definition ia_put_c (s : inplace) (i : nat) (x : N) : cres inplace := count a <- paid (lset (ia_a s) i x); cret (IA (ia_init s) (ia_b s) a).
Definition ia_set_to_c (s : inplace) (i b : nat) : cres inplace := ia_put_c s i (wrap w (N.of_nat b)).
(** InitializableArray.hpp:185-192 *)
Definition ia_chained_to_c (s : inplace) (b : nat) : cres (option nat) :=
  count bki <- ia_to_c s (2 * b);
  if (bki <? N.of_nat (kActualSize size))%N && (bki mod 2 =? 0)%N then
    count t <- ia_to_c s (N.to_nat bki);
    let k := N.to_nat bki / 2 in
    if (t =? N.of_nat (2 * b))%N && (((b <? ia_b s) && (ia_b s <=? k)) || ((k <? ia_b s) && (ia_b s <=? b)))
    then cret (Some k) else cret None
  else cret None.
(** InitializableArray.hpp:194-209 *)
Definition ia_make_chain_c (s : inplace) (bi bj : nat) : cres inplace :=
  count s <- ia_set_to_c s (2 * bi) (2 * bj); ia_set_to_c s (2 * bj) (2 * bi).
Definition ia_break_chain_c (s : inplace) (b : nat) : cres inplace :=
  count k <- ia_chained_to_c s b; match k with Some k => ia_set_to_c s (2 * k) (2 * k) | None => cret s end.
Definition ia_init_block_c (s : inplace) (b : nat) : cres inplace :=
  count s <- ia_put_c s (2 * b + 1) (ia_init s); ia_put_c s (2 * b) (ia_init s).
(** InitializableArray.hpp:211-224 *)
Definition ia_extend_c (s : inplace) : cres (inplace * nat) :=
  count k <- ia_chained_to_c s (ia_b s);
  let s := IA (ia_init s) (S (ia_b s)) (ia_a s) in
  count sk <- (match k with
               | None => cret (s, ia_b s - 1)
               | Some k => count x <- ia_to_c s (2 * k + 1); count s <- ia_put_c s (2 * (ia_b s - 1)) x; count s <- ia_break_chain_c s (ia_b s - 1); cret (s, k)
               end);
  count s <- ia_init_block_c (fst sk) (snd sk); count s <- ia_break_chain_c s (snd sk); cret (s, snd sk).
(** InitializableArray.hpp:93-105 *)
Definition ia_get_c (s : inplace) (i : nat) : cres N :=
  let b := i / 2 in
  count k <- ia_chained_to_c s b;
  if i <? 2 * ia_b s then match k with Some _ => cret (ia_init s) | None => ia_to_c s i end
  else match k with
       | Some _ => if i mod 2 =? 0 then count x <- ia_to_c s i; count j <- free (next x); ia_to_c s j else ia_to_c s i
       | None => cret (ia_init s)
       end.
(** InitializableArray.hpp:110-113, 130-135 *)
Definition ia_write_uca_c (s : inplace) (i : nat) (val : N) : cres inplace := count s <- ia_put_c s i val; ia_break_chain_c s (i / 2).
Definition ia_write_wca_c (s : inplace) (i k : nat) (val : N) : cres inplace :=
  if i mod 2 =? 0 then ia_put_c s (2 * k + 1) val else ia_put_c s i val.
(** InitializableArray.hpp:107-149 *)
Definition ia_set_c (s : inplace) (i : nat) (val : N) : cres inplace :=
  let b := i / 2 in
  count k <- ia_chained_to_c s b;
  if b <? ia_b s then
    match k with
    | None => ia_write_uca_c s i val
    | Some k =>
        count sj <- ia_extend_c s;
        let '(s, j) := sj in
        if b =? j then ia_write_uca_c s i val
        else count x <- ia_to_c s (2 * b); count s <- ia_put_c s (2 * j) x;
             count y <- ia_to_c s (2 * b + 1); count s <- ia_put_c s (2 * j + 1) y;
             count s <- ia_make_chain_c s j k; count s <- ia_init_block_c s b; ia_write_uca_c s i val
    end
  else
    match k with
    | Some k => ia_write_wca_c s i k val
    | None =>
        count sk <- ia_extend_c s;
        let '(s, k) := sk in
        if b =? k then ia_write_uca_c s i val
        else count s <- ia_init_block_c s b; count s <- ia_make_chain_c s k b; ia_write_wca_c s i k val
    end.
(** InitializableArray.hpp:151-158 *)
Definition ia_fill_c (s : inplace) (v : N) : cres inplace := cret (IA v 0 (ia_a s)).
End InPlace.
(** a loop whose body is counted *)
Fixpoint foldC {S X} (f : S -> X -> cres S) (l : list X) (s : S) : cres S :=
  match l with [] => cret s | x :: l => count s <- f s x; foldC f l s end.
(** histories, as fk_run without the constructor of the vector, and ia_run *)
Definition fk_history_c {A} (s : folklore A) (ops : list (ia_op A)) : cres (folklore A) :=
  foldC (fun s o => match o with IAFill v => fk_fill_c s v | IASet i v => fk_set_c s i v end) ops s.
Definition ia_run_c (w : N) (size : nat) (mem : list N) (v : N) (ops : list (ia_op N)) : cres inplace :=
  count s <- ia_make_c mem v;
  foldC (fun s o => match o with IAFill v => ia_fill_c s v | IASet i v => ia_set_c w size s i v end) ops s.
