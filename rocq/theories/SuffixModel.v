(** Model of string_util/SuffixArray.hpp.
    The characters of the strings sorted by Sais_ are size_t values, here N; positions are nat, [None] stands for kInf.
    Strings are shorter than 2^31, so the int counters do not overflow. abort() is [Throw].
    The statistics printed by BuildLCP_ are left out, except that they read an element of lcp_arr (line 325). *)
From Coq Require Import List NArith ZArith Arith Bool.
From Verif Require Import Base FitVectorModel.
Import ListNotations.
Local Open Scope nat_scope.

(** SuffixArray.hpp:140-145; [char] is signed, so a byte from 128 on becomes a huge size_t *)
Definition sais_str (s : list N) : list N := map (fun c => if (c <? 128)%N then c else (c + (2 ^ 64 - 256))%N) s ++ [0%N].

(** SuffixArray.hpp:79-101; an sPos of -1 stands for the wrapped value 2^64 - 1 *)
Record bucket := { bk_index : nat; bk_count : nat; bk_l : nat; bk_s : Z }.
Definition bk_init_s (b : bucket) : bucket := {| bk_index := bk_index b; bk_count := bk_count b; bk_l := bk_l b; bk_s := (Z.of_nat (bk_index b + bk_count b) - 1)%Z |}.
Definition bk_full (b : bucket) : bool := (bk_count b =? 0) || ((0 <=? bk_s b)%Z && (bk_s b <? Z.of_nat (bk_l b))%Z).
(** an element of a vector of buckets or counters, by character *)
Definition cget {A} (l : list A) (c : N) : res A := if (c <? N.of_nat (length l))%N then lget l (N.to_nat c) else UB.
Definition cset {A} (l : list A) (c : N) (x : A) : res (list A) := if (c <? N.of_nat (length l))%N then lset l (N.to_nat c) x else UB.
(** SuffixArray.hpp:150-152 *)
Definition count_chars (maxv : nat) (str : list N) : res (list nat) := foldM (fun l c => do n <- cget l c; cset l c (S n)) str (repeat 0 (S maxv)).
(** SuffixArray.hpp:153-159 *)
Fixpoint place_buckets (counts : list nat) (start : nat) : list bucket :=
  match counts with
  | [] => []
  | n :: counts => {| bk_index := start; bk_count := n; bk_l := start; bk_s := (Z.of_nat (start + n) - 1)%Z |} :: place_buckets counts (start + n)
  end.
(** SuffixArray.hpp:148-160 *)
Definition make_buckets (str : list N) (maxv : nat) : res (list bucket) := do counts <- count_chars maxv str; Ok (place_buckets counts 0).

(** SuffixArray.hpp:162-169; the types from position i on, true for S *)
Fixpoint classified (str : list N) : list bool :=
  match str with
  | [] => []
  | c :: rest =>
      match rest with
      | [] => [true]
      | d :: _ => let ts := classified rest in (if (c =? d)%N then hd true ts else (c <? d)%N) :: ts
      end
  end.
(** SuffixArray.hpp:171-178 *)
Definition is_lms (ts : list bool) (i : nat) : bool := match i with O => false | S j => negb (nth j ts true) && nth i ts false end.
Definition find_lms (ts : list bool) : list nat := filter (is_lms ts) (seq 1 (length ts - 1)).

(** SuffixArray.hpp:180-191 *)
Fixpoint equal_lms (fuel : nat) (str : list N) (ts : list bool) (cur : bool) (li ri : nat) : res bool :=
  match fuel with
  | O => Fuel
  | S fuel =>
      do a <- lget str li; do b <- lget str ri;
      if negb (a =? b)%N then Ok false else
      do t <- lget ts li;
      if negb cur && t then Ok true else equal_lms fuel str ts t (S li) (S ri)
  end.

(** SuffixArray.hpp:193-207 *)
Definition put_bucket (bs : list bucket) (sa : list (option nat)) (sl : bool) (c : N) (id : nat) : res (list bucket * list (option nat) * nat) :=
  do b <- cget bs c;
  if bk_full b then Throw else
  if sl then
    if (bk_s b <? 0)%Z then UB else
    let pos := Z.to_nat (bk_s b) in
    do sa <- lset sa pos (Some id);
    do bs <- cset bs c {| bk_index := bk_index b; bk_count := bk_count b; bk_l := bk_l b; bk_s := (bk_s b - 1)%Z |};
    Ok (bs, sa, pos)
  else
    do sa <- lset sa (bk_l b) (Some id);
    do bs <- cset bs c {| bk_index := bk_index b; bk_count := bk_count b; bk_l := S (bk_l b); bk_s := bk_s b |};
    Ok (bs, sa, bk_l b).

(** SuffixArray.hpp:261-263 and 267-270: put the LMS suffix with number i *)
Definition put_lms (str : list N) (lms : list nat) (st : list bucket * list (option nat) * list nat) (i : nat) : res (list bucket * list (option nat) * list nat) :=
  let '(bs, sa, poses) := st in
  do id <- lget lms i; do c <- lget str id;
  do r <- put_bucket bs sa true c id;
  let '(bs, sa, pos) := r in
  do poses <- lset poses i pos;
  Ok (bs, sa, poses).
(** SuffixArray.hpp:274-280 and 291-297, one iteration; [sl] = false for step 2 *)
Definition induce_step (str : list N) (ts : list bool) (sl : bool) (st : list bucket * list (option nat)) (i : nat) : res (list bucket * list (option nat)) :=
  let '(bs, sa) := st in
  do x <- lget sa i;
  match x with
  | None | Some O => Ok st
  | Some (S id) =>
      do t <- lget ts id;
      if Bool.eqb t sl then
        do c <- lget str id; do r <- put_bucket bs sa sl c id; let '(bs, sa, _) := r in Ok (bs, sa)
      else Ok st
  end.
(** SuffixArray.hpp:253-299; [order] is the order in which the LMS suffixes are put: from the last to the first, or from the end of lmssArr *)
Definition induce (maxv : nat) (str : list N) (ts : list bool) (lms : list nat) (order : list nat) : res (list (option nat)) :=
  do bs <- make_buckets str maxv;
  do r <- foldM (put_lms str lms) order (bs, repeat None (length str), repeat 0 (length lms));
  let '(bs, sa, poses) := r in
  do r <- foldM (induce_step str ts false) (seq 0 (length str)) (bs, sa);
  let '(bs, sa) := r in
  do sa <- foldM (fun sa pos => if pos =? 0 then Ok sa else lset sa pos None) poses sa;
  let bs := map bk_init_s bs in
  do r <- foldM (induce_step str ts true) (rev (seq 0 (length str))) (bs, sa);
  Ok (snd r).

(** SuffixArray.hpp:232-241, one iteration; state: subAsStr, charNumber, lastLmsId *)
Definition name_step (str : list N) (ts : list bool) (st : list (option nat) * nat * nat) (x : option nat) : res (list (option nat) * nat * nat) :=
  let '(sub, n, last) := st in
  match x with
  | None => UB
  | Some O => Ok st
  | Some (S j as id) =>
      do t0 <- lget ts j; do t1 <- lget ts id;
      if negb t0 && t1 then
        do n <- (if 0 <? last then do e <- equal_lms (S (length str)) str ts true last id; Ok (if e then n else S n) else Ok n);
        do sub <- lset sub id (Some n);
        Ok (sub, n, id)
      else Ok st
  end.
(** SuffixArray.hpp:242-248 *)
Definition squeeze (k : nat) (sub : list (option nat)) : res (list nat) :=
  do r <- foldM (fun st x => let '(l, i) := st in match x with None => Ok st | Some v => do l <- lset l i v; Ok (l, S i) end) sub (repeat 0 k, 0);
  Ok (fst r).
(** SuffixArray.hpp:209-225 with 227-251; [fuel] bounds the depth of the recursion. countShared = lmsIds.size() - 1 - charNumber
    is a size_t, zero exactly when charNumber + 1 is the number of LMS positions; lmsIds.size() - 1 - countShared is charNumber. *)
Fixpoint sais (fuel : nat) (str : list N) (maxv : nat) : res (list (option nat)) :=
  match fuel with
  | O => Fuel
  | S fuel =>
      let ts := classified str in
      let lms := find_lms ts in
      do sa <- induce maxv str ts lms (rev (seq 0 (length lms)));
      do r <- foldM (name_step str ts) sa (repeat None (length str), 0, 0);
      let '(sub, n, _) := r in
      do sub <- squeeze (length lms) sub;
      if length lms =? S n then Ok sa else
      do ssa <- sais fuel (map N.of_nat sub) n;
      do order <- mapM (fun x => match x with Some i => Ok i | None => UB end) ssa;
      induce maxv str ts lms (rev order)
  end.
(** SuffixArray.hpp:129-137 *)
Definition build_sa (s : list N) : res fitvec :=
  do sa <- sais (S (length s)) (sais_str s) 255;
  do sa <- mapM (fun x => match x with Some i => Ok (N.of_nat i) | None => Ok (2 ^ 64 - 1)%N end) sa;
  fv_of_list (tl sa).

(** SuffixArray.hpp:341-351 *)
Fixpoint compare_lcp (fuel : nat) (s : list N) (li ri matches : nat) : res nat :=
  match fuel with
  | O => Fuel
  | S fuel =>
      if Nat.max li ri <? length s then
        do a <- lget s li; do b <- lget s ri;
        if (a =? b)%N then compare_lcp fuel s (S li) (S ri) (S matches) else Ok matches
      else Ok matches
  end.
(** SuffixArray.hpp:303-305 *)
Definition invert_sa (sa : fitvec) : res (list nat) :=
  foldM (fun inv i => do p <- fv_get sa i; cset inv p i) (seq 0 (fv_size sa)) (repeat 0 (fv_size sa)).
(** SuffixArray.hpp:309-312; state: lcp_arr, prevLCP *)
Definition lcp_step (s : list N) (sa : fitvec) (inv : list nat) (st : list nat * nat) (i : nat) : res (list nat * nat) :=
  let '(lcp, prev) := st in
  do pos <- lget inv i;
  do x <- (if pos =? length inv - 1 then Ok 0 else
           do r <- fv_get sa (pos + 1);
           let k := if 1 <? prev then prev - 1 else 0 in compare_lcp (S (length s)) s (i + k) (N.to_nat r + k) k);
  do lcp <- lset lcp pos x;
  Ok (lcp, x).
(** SuffixArray.hpp:301-339 *)
Definition build_lcp (s : list N) (sa : fitvec) : res fitvec :=
  do inv <- invert_sa sa;
  do r <- foldM (lcp_step s sa inv) (seq 0 (length inv)) (repeat 0 (fv_size sa), 0);
  do v <- fv_of_list (map N.of_nat (fst r));
  do _ <- lget (fst r) (fv_size sa / 2);
  Ok v.
(** SuffixArray.hpp:35-38 *)
Definition suffix_array (s : list N) : res (fitvec * fitvec) := do sa <- build_sa s; do lcp <- build_lcp s sa; Ok (sa, lcp).
Definition fv_list (v : fitvec) : res (list N) := mapM (fv_get v) (seq 0 (fv_size v)).
