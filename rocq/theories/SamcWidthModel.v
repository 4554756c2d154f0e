(** Model of the constructor of string_util/Samc.hpp for a code_type of [cw] bytes (unsigned, [cw] = 1, 2, 4 or 8).
    SamcModel.v keeps codes and heads as they are; here they are truncated when stored in code_table_ and head_,
    and the differences and sums of size_t values wrap. The definitions that do not involve them are those of SamcModel.v. *)
From Coq Require Import List NArith ZArith Arith Bool.
From Verif Require Import Base BitUtilModel BitVectorModel SuccinctModel SamcModel.
Import ListNotations.
Local Open Scope nat_scope.

Section W.
Variable cw : nat.
(** conversion to code_type *)
Definition to_code (x : N) : N := (x mod 2 ^ N.of_nat (8 * cw))%N.
(** conversion of an integer to size_t *)
Definition to_size (x : Z) : N := Z.to_N (x mod 2 ^ 64).
(** Samc.hpp:184: a difference of two code_type values converted to size_t. One and two bytes are promoted to int, so the difference is
    signed; four bytes are subtracted as unsigned int *)
Definition prev_height (h0 h1 : N) : N := if cw =? 4 then ((h1 + 2 ^ 32 - h0) mod 2 ^ 32)%N else to_size (Z.of_N h1 - Z.of_N h0).
(** Samc.hpp:187-200, one iteration; an inset outside the words of empty_bv is [UB] *)
Definition place_w (h0 h1 : N) (c : N) (code : N) (st : level) (e : N * nat * list (list N)) : res level :=
  let index := wrap64 (h0 + N.of_nat (snd (fst e)) + code) in
  let inset := to_size (Z.of_N index - Z.of_N h1) in
  if negb (inset <? N.of_nat (64 * length (bv_words (lv_bv st))))%N then UB else
  do bv <- bv_set (lv_bv st) (N.to_nat inset) false;
  Ok {| lv_bv := bv; lv_max := Nat.max (lv_max st) (N.to_nat inset + 1); lv_row := lv_row st; lv_map := lv_map st ++ [(N.to_nat index, c)];
        lv_queue := if (c =? 0)%N then lv_queue st else lv_queue st ++ [(N.to_nat index, snd e)] |}.
(** Samc.hpp:171-201, one iteration *)
Definition char_step_w (legacy : bool) (h0 h1 : N) (edges : list (N * nat * list (list N))) (st : level) (ci : nat) : res level :=
  let c := N.of_nat ci in
  let mine := filter (fun e => (fst (fst e) =? c)%N) edges in
  let indices := map (fun e => snd (fst e)) mine in
  match indices with
  | [] => Ok st
  | _ :: _ =>
      let height := 1 + max_index indices - min_index indices in
      do bv <- (if bv_size (lv_bv st) <? lv_max st + height then bv_resize (lv_bv st) (lv_max st + height) true else Ok (lv_bv st));
      do y <- (if legacy then y_check_legacy (S (bv_size bv)) indices bv (- Z.of_nat (min_index indices)) else y_check indices bv);
      let code := to_size (Z.of_N (prev_height h0 h1) + y) in
      do row <- lset (lv_row st) ci (to_code code);
      foldM (place_w h0 h1 c code) mine {| lv_bv := bv; lv_max := lv_max st; lv_row := row; lv_map := lv_map st; lv_queue := lv_queue st |}
  end.
(** Samc.hpp:145-209; h0 and h1 are the last two elements of head_. The indices in the queue are at least h0 (an index is h1 of its level plus its inset), so the difference at line 161 does not wrap *)
Fixpoint build_levels_w (legacy : bool) (fuel d : nat) (h0 h1 : N) (head : list nat) (codes : list (list N)) (map : list (nat * N)) (queue : list (nat * list (list N))) : res (list nat * list (list N) * list (nat * N)) :=
  match queue with
  | [] => Ok (head, codes, map)
  | _ :: _ =>
      match fuel with
      | O => Fuel
      | S fuel =>
          do edges <- collect queue d (N.to_nat h0);
          do st <- foldM (char_step_w legacy h0 h1 edges) (seq 0 256) {| lv_bv := bv_default; lv_max := 0; lv_row := repeat 0%N 256; lv_map := map; lv_queue := [] |};
          let h2 := to_code (h1 + N.of_nat (lv_max st)) in
          build_levels_w legacy fuel (S d) h1 h2 (head ++ [N.to_nat h2]) (codes ++ [lv_row st]) (lv_map st) (lv_queue st)
      end
  end.
(** Samc.hpp:135-216 *)
Definition sm_build_w (legacy : bool) (fuel : nat) (keys : list (list N)) : res samc :=
  do r <- build_levels_w legacy fuel 0 0 1 [0; 1] [] [(0, 94%N)] [(0, keys)];
  let '(head, codes, map) := r in
  do storage <- foldM (fun s w => lset s (fst w) (snd w)) map (repeat 255%N (last head 0));
  Ok {| sm_storage := storage; sm_codes := codes; sm_head := head |}.
(** Samc.hpp:357-360 with 366-373, as sd_build in SamcModel.v *)
Definition sd_build_w (fuel : nat) (keys : list (list N)) : res samc_dict :=
  do s <- sm_build_w false fuel keys;
  do src <- foldM (fun v i => do b <- sm_check s i; if (b =? 0)%N then bv_set v i true else Ok v) (seq 1 (length (sm_storage s) - 1)) (bv_sized (length (sm_storage s)));
  do leaves <- sb_build true src;
  Ok {| sd_samc := s; sd_leaves := leaves |}.
End W.
