(** Model of the statistics that SuffixArray::BuildLCP_ prints. *)
From Coq Require Import List NArith ZArith Arith.
From Verif Require Import Base BitUtilModel CalcModel FitVectorModel SuffixModel.
Import ListNotations.
Local Open Scope nat_scope.

(** std::sort on unsigned numbers (string_util/SuffixArray.hpp:319): its result, by insertion *)
Fixpoint put_sorted (x : N) (l : list N) : list N := match l with [] => [x] | y :: l' => if (x <=? y)%N then x :: l else y :: put_sorted x l' end.
Definition std_sort (l : list N) : list N := fold_right put_sorted [] l.
(** long long += size_t (string_util/SuffixArray.hpp:322): modulo 2^64, read as a signed number *)
Definition ll_add (s : Z) (x : N) : Z := let r := ((s + Z.of_N x) mod 2 ^ 64)%Z in if (r <? 2 ^ 63)%Z then r else (r - 2 ^ 64)%Z.

(** The numbers printed. The average is kept as dividend and divisor, its float value is not modelled. [lr_map] is the size map with its running index. *)
Record lreport := LReport { lr_count : nat; lr_max : N; lr_mean : Z * nat; lr_median : N; lr_map : list (nat * nat) }.
(** string_util/SuffixArray.hpp:317-338 *)
Definition lcp_report (lcp : list N) : res lreport :=
  let a := std_sort lcp in
  let ms := fold_left (fun (st : N * Z) l => (N.max l (fst st), ll_add (snd st) l)) a (0%N, 0%Z) in
  do median <- lget a (length a / 2);
  do map <- bit_length_frequencies a;
  Ok (LReport (length a) (fst ms) (snd ms, length a) median (combine (seq 0 (length map)) map)).
(** string_util/SuffixArray.hpp:301-339 with what is printed *)
Definition build_lcp_shown (s : list N) (sa : fitvec) : res (fitvec * lreport) :=
  do inv <- invert_sa sa;
  do r <- foldM (lcp_step s sa inv) (seq 0 (length inv)) (repeat 0 (fv_size sa), 0);
  do v <- fv_of_list (map N.of_nat (fst r));
  do p <- lcp_report (map N.of_nat (fst r));
  Ok (v, p).
(** string_util/SuffixArray.hpp:35-38 *)
Definition suffix_array_shown (s : list N) : res (fitvec * fitvec * lreport) :=
  do sa <- build_sa s; do lp <- build_lcp_shown s sa; Ok (sa, fst lp, snd lp).
