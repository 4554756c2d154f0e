(** Model of string_util/SuffixArray.hpp with the counters that the source keeps in an int ([auto x = 0], [int i]), where
    SuffixModel.v takes them to be unbounded. Converting a size_t to int keeps the low 32 bits, converting back extends the
    sign, overflowing an increment is [UB]. Everything else is taken over from SuffixModel.v. *)
From Coq Require Import List NArith ZArith Arith Bool.
From Verif Require Import Base SignedModel FitVectorModel LimitModel SuffixModel.
Import ListNotations.
Local Open Scope nat_scope.

(** SuffixArray.hpp:91-93: sPos = index + count - 1 in size_t; -1 stands for 2^64 - 1 *)
Definition s_pos (index : N) (count : nat) : Z := (Z.of_N (wrap64 (index + N.of_nat count)) - 1)%Z.
Definition bk_init_s_int (b : bucket) : bucket := {| bk_index := bk_index b; bk_count := bk_count b; bk_l := bk_l b; bk_s := s_pos (N.of_nat (bk_index b)) (bk_count b) |}.
(** SuffixArray.hpp:153-159 with [auto count = 0]: [b.index = count] extends the sign, [count += b.count] adds in size_t and converts back *)
Fixpoint place_buckets_int (counts : list nat) (start : Z) : list bucket :=
  match counts with
  | [] => []
  | n :: counts =>
      let index := to_word start in
      {| bk_index := N.to_nat index; bk_count := n; bk_l := N.to_nat index; bk_s := s_pos index n |} ::
      place_buckets_int counts (to_int (wrap64 (index + N.of_nat n)))
  end.
(** SuffixArray.hpp:148-160 *)
Definition make_buckets_int (str : list N) (maxv : nat) : res (list bucket) := do counts <- count_chars maxv str; Ok (place_buckets_int counts 0).
(** SuffixArray.hpp:259: [for (int i = lmsIds.size() - 1; i >= 0; i--)] *)
Definition first_order (k : nat) : list nat := rev (seq 0 (Z.to_nat (to_int (wsub (N.of_nat k) 1) + 1))).
(** SuffixArray.hpp:253-299 *)
Definition induce_int (maxv : nat) (str : list N) (ts : list bool) (lms : list nat) (order : list nat) : res (list (option nat)) :=
  do bs <- make_buckets_int str maxv;
  do r <- foldM (put_lms str lms) order (bs, repeat None (length str), repeat 0 (length lms));
  let '(bs, sa, poses) := r in
  do r <- foldM (induce_step str ts false) (seq 0 (length str)) (bs, sa);
  let '(bs, sa) := r in
  do sa <- foldM (fun sa pos => if pos =? 0 then Ok sa else lset sa pos None) poses sa;
  let bs := map bk_init_s_int bs in
  do r <- foldM (induce_step str ts true) (rev (seq 0 (length str))) (bs, sa);
  Ok (snd r).
(** SuffixArray.hpp:232-241 with [auto lastLmsId = 0] *)
Definition name_step_int (str : list N) (ts : list bool) (st : list (option nat) * nat * Z) (x : option nat) : res (list (option nat) * nat * Z) :=
  let '(sub, n, last) := st in
  match x with
  | None => UB
  | Some O => Ok st
  | Some (S j as id) =>
      do t0 <- lget ts j; do t1 <- lget ts id;
      if negb t0 && t1 then
        do n <- (if (0 <? last)%Z then do e <- equal_lms (S (length str)) str ts true (Z.to_nat last) id; Ok (if e then n else S n) else Ok n);
        do sub <- lset sub id (Some n);
        Ok (sub, n, to_int (N.of_nat id))
      else Ok st
  end.
(** SuffixArray.hpp:242-248 with [auto i = 0] *)
Definition squeeze_int (k : nat) (sub : list (option nat)) : res (list nat) :=
  do r <- foldM (fun st x => let '(l, i) := st in match x with None => Ok st | Some v => do l <- lset l (Z.to_nat i) v; do i <- int_inc i; Ok (l, i) end) sub (repeat 0 k, 0%Z);
  Ok (fst r).
(** SuffixArray.hpp:209-225 with 227-251 *)
Fixpoint sais_int (fuel : nat) (str : list N) (maxv : nat) : res (list (option nat)) :=
  match fuel with
  | O => Fuel
  | S fuel =>
      let ts := classified str in
      let lms := find_lms ts in
      do sa <- induce_int maxv str ts lms (first_order (length lms));
      do r <- foldM (name_step_int str ts) sa (repeat None (length str), 0, 0%Z);
      let '(sub, n, _) := r in
      do sub <- squeeze_int (length lms) sub;
      if length lms =? S n then Ok sa else
      do ssa <- sais_int fuel (map N.of_nat sub) n;
      do order <- mapM (fun x => match x with Some i => Ok i | None => UB end) ssa;
      induce_int maxv str ts lms (rev order)
  end.
(** SuffixArray.hpp:129-137 *)
Definition build_sa_int (s : list N) : res fitvec :=
  do sa <- sais_int (S (length s)) (sais_str s) 255;
  do sa <- mapM (fun x => match x with Some i => Ok (N.of_nat i) | None => Ok (2 ^ 64 - 1)%N end) sa;
  fv_of_list (tl sa).
(** SuffixArray.hpp:309-312 with [auto prevLCP = 0] *)
Definition lcp_step_int (s : list N) (sa : fitvec) (inv : list nat) (st : list nat * Z) (i : nat) : res (list nat * Z) :=
  let '(lcp, prev) := st in
  do pos <- lget inv i;
  do x <- (if pos =? length inv - 1 then Ok 0 else
           do r <- fv_get sa (pos + 1);
           let k := if (1 <? prev)%Z then Z.to_nat (prev - 1) else 0 in compare_lcp (S (length s)) s (i + k) (N.to_nat r + k) k);
  do lcp <- lset lcp pos x;
  Ok (lcp, to_int (N.of_nat x)).
(** SuffixArray.hpp:301-339 *)
Definition build_lcp_int (s : list N) (sa : fitvec) : res fitvec :=
  do inv <- invert_sa sa;
  do r <- foldM (lcp_step_int s sa inv) (seq 0 (length inv)) (repeat 0 (fv_size sa), 0%Z);
  do v <- fv_of_list (map N.of_nat (fst r));
  do _ <- lget (fst r) (fv_size sa / 2);
  Ok v.
(** SuffixArray.hpp:35-38 *)
Definition suffix_array_int (s : list N) : res (fitvec * fitvec) := do sa <- build_sa_int s; do lcp <- build_lcp_int s sa; Ok (sa, lcp).
