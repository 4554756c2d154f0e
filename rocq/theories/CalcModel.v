(** Model of calc.hpp. Values are 64-bit words [N]; sizes and counts are naturals. *)
From Coq Require Import List NArith Arith Bool.
From Verif Require Import Base.
Import ListNotations.

(** calc.hpp:16-20 SizeFitsInUnits: the loop [while (value >> (++size * unit)) continue;].
    A shift count of 64 or more is undefined, so 65 iterations always suffice for unit >= 1. *)
Fixpoint size_fits_loop (fuel : nat) (value unit : N) (size : nat) : res nat :=
  match fuel with
  | O => Fuel
  | S fuel =>
      let size := S size in
      do y <- shr64 value (N.of_nat size * unit);
      if N.eqb y 0 then Ok size else size_fits_loop fuel value unit size
  end.
Definition SizeFitsInUnits (value unit : N) : res nat := size_fits_loop 65 value unit 0.

(** calc.hpp:28-30 *)
Definition SizeFitsInBytes (value : N) : res nat := SizeFitsInUnits value 8.
(** calc.hpp:33-35 *)
Definition SizeFitsInBits (value : N) : res nat := SizeFitsInUnits value 1.

(** calc.hpp:38-42 SizeFitsAsList: [while (value >>= sizes[size++]) continue;].
    Running past the end of [sizes] is undefined. *)
Fixpoint size_fits_list_loop (value : N) (sizes : list N) (size : nat) : res nat :=
  match sizes with
  | [] => UB
  | s :: sizes =>
      do y <- shr64 value s;
      if N.eqb y 0 then Ok (S size) else size_fits_list_loop y sizes (S size)
  end.
Definition SizeFitsAsList (value : N) (sizes : list N) : res nat := size_fits_list_loop value sizes 0.

(** calc.hpp:44-60 bit_length_frequencies. State: (map, max_size). *)
Definition blf_step (st : list nat * nat) (v : N) : res (list nat * nat) :=
  let '(map, max_size) := st in
  do size <- SizeFitsInBits v;
  let '(map, max_size) := if max_size <? size then (lresize map size 0, size) else (map, max_size) in
  do c <- lget map (size - 1);
  do map <- lset map (size - 1) (S c);
  Ok (map, max_size).
Definition bit_length_frequencies (l : list N) : res (list nat) :=
  rmap fst (foldM blf_step l ([], 0)).

(** calc.hpp:67-72 the accumulation loop of cummulative_frequency_list.
    Simplified: [count] is an int in the source; here it does not overflow (fewer than 2^31 values). *)
Definition cfl_step (map : list nat) (st : list nat * nat) (i : nat) : res (list nat * nat) :=
  let '(cf, count) := st in
  do c <- lget map (i - 1);
  let count := count + c in
  do cf <- lset cf (i - 1) count;
  Ok (cf, count).
(** calc.hpp:62-83 cummulative_frequency_list (without the optional printing, 74-78) *)
Definition cummulative_frequency_list (l : list N) : res (list nat) :=
  do map <- bit_length_frequencies l;
  rmap fst (foldM (cfl_step map) (rev (seq 1 (length map))) (repeat 0 (length map), 0)).

(** calc.hpp:85-87 additional_bit_size_of_rank. The double expression
    ((n-1)/64+1 + (n/512+1)*2)*64 is exact for n < 2^50 and equals (5n+764)/4, truncated. *)
Definition additional_bit_size_of_rank (n : N) : N := ((5 * n + 764) / 4)%N.

(** calc.hpp:101-107 inner minimisation over i = t+1..m; state (min_size, min_pos).
    Simplified: sizes do not wrap around 2^64 (lists shorter than 2^57). *)
Definition dp_inner (s : list N) (cft : N) (t : nat) (st : N * nat) (i : nat) : res (N * nat) :=
  let '(min_size, min_pos) := st in
  do si <- lget s i;
  let current := (si + cft * N.of_nat (i - t) + additional_bit_size_of_rank cft)%N in
  if (current <? min_size)%N then Ok (current, i) else Ok (min_size, min_pos).

(** calc.hpp:98-117 one iteration of the outer loop; state (s, l, b). *)
Definition dp_outer (cf : list nat) (m : nat) (st : list N * list nat * list nat) (t : nat)
  : res (list N * list nat * list nat) :=
  let '(s, l, b) := st in
  do cft0 <- lget cf t;
  let cft := N.of_nat cft0 in
  do mm <- foldM (dp_inner s cft t) (seq (t + 1) (m - t)) ((2 ^ 64 - 1)%N, m);
  let '(min_size, min_pos) := mm in
  if (min_size <? cft * N.of_nat (m + 1 - t))%N then
    do s <- lset s t min_size;
    do lm <- lget l min_pos;
    do l <- lset l t (lm + 1);
    do b <- lset b t (min_pos - t);
    Ok (s, l, b)
  else
    do s <- lset s t (cft * N.of_nat (m + 1 - t))%N;
    do l <- lset l t 1;
    do b <- lset b t (m + 1 - t);
    Ok (s, l, b).

Definition dp_tables (cf : list nat) (m : nat) : res (list N * list nat * list nat) :=
  foldM (dp_outer cf m) (rev (seq 0 (m + 1))) (repeat 0%N (m + 1), repeat 0 (m + 1), repeat 0 (m + 1)).

(** calc.hpp:123-126 [for (k = 0; k <= L; k++) { bk[k] = b[t]; t += b[t]; }], [n] iterations from k. *)
Fixpoint split_walk (n k t : nat) (b bk : list nat) : res (list nat) :=
  match n with
  | O => Ok bk
  | S n => do v <- lget b t; do bk <- lset bk k v; split_walk n (S k) (t + v) b bk
  end.

(** calc.hpp:129-134 separator positions *)
Definition sep_step (st : list bool * nat) (v : nat) : res (list bool * nat) :=
  let '(sep, p) := st in
  let p := p + v in
  do sep <- lset sep p true;
  Ok (sep, p).

(** calc.hpp:139-143 candidates sorted so that the least gain is at the back; [pq] here is listed
    from the back, i.e. in increasing order of gain. std::sort leaves the order of equal
    gains unspecified; this model uses a stable insertion sort, and the proofs about the merge
    hold for every order. *)
Fixpoint insert_gain (x : N * nat) (l : list (N * nat)) : list (N * nat) :=
  match l with
  | [] => [x]
  | y :: l => if (fst x <=? fst y)%N then x :: y :: l else y :: insert_gain x l
  end.
Definition gains (cf : list nat) (m : nat) : list (N * nat) :=
  fold_right insert_gain []
    (map (fun i => (wsub (N.of_nat (nth (i - 1) cf 0)) (N.of_nat (nth i cf 0)), i)) (seq 1 (m - 1))).

(** calc.hpp:144-152 removal of separators *)
Fixpoint remove_seps (pq : list nat) (num_seps max_levels : nat) (sep : list bool) : res (list bool) :=
  if max_levels <? num_seps then
    match pq with
    | [] => Ok sep
    | i :: pq =>
        do x <- lget sep i;
        if x then do sep <- lset sep i false; remove_seps pq (num_seps - 1) max_levels sep
        else remove_seps pq num_seps max_levels sep
    end
  else Ok sep.

(** calc.hpp:154-161 widths from separators, scanning position i *)
Fixpoint widths_of_seps (sep : list bool) (i last : nat) : list nat :=
  match sep with
  | [] => []
  | x :: sep => if x then (i - last) :: widths_of_seps sep (S i) i else widths_of_seps sep (S i) last
  end.

(** calc.hpp:128-162 merging down to max_levels *)
Definition merge_levels (cf : list nat) (pq : list nat) (max_levels : nat) (bk : list nat) : res (list nat) :=
  if max_levels <? length bk then
    do st <- foldM sep_step bk (repeat false (length cf + 1), 0);
    do sep <- remove_seps pq (length bk) max_levels (fst st);
    Ok (widths_of_seps sep 0 0)
  else Ok bk.

(** calc.hpp:89-167 split_positions_optimized_for_dac.
    [iters L] is the number of iterations of the loop at 123: the source runs L+1 of them.
    The result is [None] when the function returns without touching *result (empty list, line 91). *)
Definition split_positions_gen (iters : nat -> nat) (l : list N) (max_levels : nat) : res (option (list nat)) :=
  match l with
  | [] => Ok None
  | _ =>
      do cf <- cummulative_frequency_list l;
      let m := length cf - 1 in
      do tb <- dp_tables cf m;
      let '(s, lv, b) := tb in
      do L <- lget lv 0;
      do bk <- split_walk (iters L) 0 0 b (repeat 0 L);
      do r <- merge_levels cf (map snd (gains cf m)) max_levels bk;
      Ok (Some r)
  end.

(** The source as written: the loop body runs for k = 0..L (calc.hpp:123). *)
Definition split_positions (l : list N) (max_levels : nat) : res (option (list nat)) :=
  split_positions_gen S l max_levels.

(** The same with the last, stray iteration (k = L) left out: what the function computes when the
    read of b[m+1] and the write of bk[L] have no effect. Used for [_partial] results. *)
Definition split_positions_tolerant (l : list N) (max_levels : nat) : res (option (list nat)) :=
  split_positions_gen (fun L => L) l max_levels.
