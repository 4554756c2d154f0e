(** The functions of SuffixModel.v once more, with the iterations of their loops counted, and with the lengths of the
    strings on which Sais_ is called. SaisCost.v proves that leaving out the counters gives SuffixModel.v.
    Counted are the loops written in SuffixArray.hpp, not those inside std::vector, std::sort and FitVector. *)
From Coq Require Import List NArith ZArith Arith Bool.
From Verif Require Import Base FitVectorModel SuffixModel.
Import ListNotations.
Local Open Scope nat_scope.

(** one more iteration *)
Definition tick {A X} (f : A -> X -> res A) (st : A * nat) (x : X) : res (A * nat) := do a <- f (fst st) x; Ok (a, S (snd st)).
Definition loop {A X} (f : A -> X -> res A) (l : list X) (a : A) : res (A * nat) := foldM (tick f) l (a, 0).

(** SuffixArray.hpp:162-169 *)
Fixpoint classified_count (str : list N) : list bool * nat :=
  match str with
  | [] => ([], 0)
  | c :: rest =>
      match rest with
      | [] => ([true], 0)
      | d :: _ => let r := classified_count rest in ((if (c =? d)%N then hd true (fst r) else (c <? d)%N) :: fst r, S (snd r))
      end
  end.
(** SuffixArray.hpp:171-178 *)
Definition find_lms_count (ts : list bool) : list nat * nat :=
  fold_left (fun st i => (if is_lms ts i then fst st ++ [i] else fst st, S (snd st))) (seq 1 (length ts - 1)) ([], 0).
(** SuffixArray.hpp:148-160 *)
Fixpoint place_buckets_count (counts : list nat) (start : nat) : list bucket * nat :=
  match counts with
  | [] => ([], 0)
  | n :: counts =>
      let r := place_buckets_count counts (start + n) in
      ({| bk_index := start; bk_count := n; bk_l := start; bk_s := (Z.of_nat (start + n) - 1)%Z |} :: fst r, S (snd r))
  end.
Definition make_buckets_count (str : list N) (maxv : nat) : res (list bucket * nat) :=
  do r <- loop (fun l c => do n <- cget l c; cset l c (S n)) str (repeat 0 (S maxv));
  let p := place_buckets_count (fst r) 0 in Ok (fst p, snd r + snd p).
(** SuffixArray.hpp:180-191 *)
Fixpoint equal_lms_count (fuel : nat) (str : list N) (ts : list bool) (cur : bool) (li ri : nat) : res (bool * nat) :=
  match fuel with
  | O => Fuel
  | S fuel =>
      do a <- lget str li; do b <- lget str ri;
      if negb (a =? b)%N then Ok (false, 1) else
      do t <- lget ts li;
      if negb cur && t then Ok (true, 1) else do r <- equal_lms_count fuel str ts t (S li) (S ri); Ok (fst r, S (snd r))
  end.
(** SuffixArray.hpp:253-299 *)
Definition induce_count (maxv : nat) (str : list N) (ts : list bool) (lms : list nat) (order : list nat) : res (list (option nat) * nat) :=
  do r0 <- make_buckets_count str maxv;
  do r1 <- loop (put_lms str lms) order (fst r0, repeat None (length str), repeat 0 (length lms));
  let '(bs, sa, poses) := fst r1 in
  do r2 <- loop (induce_step str ts false) (seq 0 (length str)) (bs, sa);
  let '(bs, sa) := fst r2 in
  do r3 <- loop (fun sa pos => if pos =? 0 then Ok sa else lset sa pos None) poses sa;
  do r4 <- loop (fun bs b => Ok (bs ++ [bk_init_s b])) bs [];
  do r5 <- loop (induce_step str ts true) (rev (seq 0 (length str))) (fst r4, fst r3);
  Ok (snd (fst r5), snd r0 + snd r1 + snd r2 + snd r3 + snd r4 + snd r5).
(** SuffixArray.hpp:232-241 *)
Definition name_step_count (str : list N) (ts : list bool) (st : list (option nat) * nat * nat * nat) (x : option nat) : res (list (option nat) * nat * nat * nat) :=
  let '(sub, n, last, k) := st in
  match x with
  | None => UB
  | Some O => Ok (sub, n, last, S k)
  | Some (S j as id) =>
      do t0 <- lget ts j; do t1 <- lget ts id;
      if negb t0 && t1 then
        do r <- (if 0 <? last then do e <- equal_lms_count (S (length str)) str ts true last id; Ok (if fst e then n else S n, snd e) else Ok (n, 0));
        do sub <- lset sub id (Some (fst r));
        Ok (sub, fst r, id, S k + snd r)
      else Ok (sub, n, last, S k)
  end.
(** SuffixArray.hpp:242-248 *)
Definition squeeze_count (k : nat) (sub : list (option nat)) : res (list nat * nat) :=
  do r <- loop (fun st x => let '(l, i) := st in match x with None => Ok st | Some v => do l <- lset l i v; Ok (l, S i) end) sub (repeat 0 k, 0);
  Ok (fst (fst r), snd r).
(** SuffixArray.hpp:209-225 with 227-251; the last component lists the lengths of the strings, from the outermost call *)
Fixpoint sais_count (fuel : nat) (str : list N) (maxv : nat) : res (list (option nat) * nat * list nat) :=
  match fuel with
  | O => Fuel
  | S fuel =>
      let c := classified_count str in
      let f := find_lms_count (fst c) in
      let ts := fst c in
      let lms := fst f in
      do r1 <- induce_count maxv str ts lms (rev (seq 0 (length lms)));
      do r2 <- foldM (name_step_count str ts) (fst r1) (repeat None (length str), 0, 0, 0);
      let '(sub, n, _, k2) := r2 in
      do r3 <- squeeze_count (length lms) sub;
      let k := snd c + snd f + snd r1 + k2 + snd r3 in
      if length lms =? S n then Ok (fst r1, k, [length str]) else
      do r4 <- sais_count fuel (map N.of_nat (fst r3)) n;
      let '(ssa, k4, sizes) := r4 in
      do order <- mapM (fun x => match x with Some i => Ok i | None => UB end) ssa;
      do r5 <- induce_count maxv str ts lms (rev order);
      Ok (fst r5, k + k4 + snd r5, length str :: sizes)
  end.

(** SuffixArray.hpp:341-351; counted are the comparisons of characters *)
Fixpoint compare_lcp_count (fuel : nat) (s : list N) (li ri matches : nat) : res (nat * nat) :=
  match fuel with
  | O => Fuel
  | S fuel =>
      if Nat.max li ri <? length s then
        do a <- lget s li; do b <- lget s ri;
        if (a =? b)%N then do r <- compare_lcp_count fuel s (S li) (S ri) (S matches); Ok (fst r, S (snd r)) else Ok (matches, 1)
      else Ok (matches, 0)
  end.
(** SuffixArray.hpp:309-312 *)
Definition lcp_step_count (s : list N) (sa : fitvec) (inv : list nat) (st : list nat * nat * nat) (i : nat) : res (list nat * nat * nat) :=
  let '(lcp, prev, c) := st in
  do pos <- lget inv i;
  do x <- (if pos =? length inv - 1 then Ok (0, 0) else
           do r <- fv_get sa (pos + 1);
           let k := if 1 <? prev then prev - 1 else 0 in compare_lcp_count (S (length s)) s (i + k) (N.to_nat r + k) k);
  do lcp <- lset lcp pos (fst x);
  Ok (lcp, fst x, c + snd x).
(** SuffixArray.hpp:301-339; result: the array, the comparisons of characters *)
Definition build_lcp_count (s : list N) (sa : fitvec) : res (fitvec * nat) :=
  do inv <- invert_sa sa;
  do r <- foldM (lcp_step_count s sa inv) (seq 0 (length inv)) (repeat 0 (fv_size sa), 0, 0);
  do v <- fv_of_list (map N.of_nat (fst (fst r)));
  do _ <- lget (fst (fst r)) (fv_size sa / 2);
  Ok (v, snd r).
(** SuffixArray.hpp:35-38, 129-137; result: the two arrays, the iterations in Sais_, the lengths of its strings, and the
    comparisons of BuildLCP_ *)
Definition suffix_array_count (s : list N) : res (fitvec * fitvec * nat * list nat * nat) :=
  do r <- sais_count (S (length s)) (sais_str s) 255;
  let '(sa, k, sizes) := r in
  do sa <- mapM (fun x => match x with Some i => Ok (N.of_nat i) | None => Ok (2 ^ 64 - 1)%N end) sa;
  do sa <- fv_of_list (tl sa);
  do l <- build_lcp_count s sa;
  Ok (sa, fst l, k, sizes, snd l).
