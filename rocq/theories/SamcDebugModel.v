(** The construction of Samc in a build with assertions on (NDEBUG not defined): the functions of SamcModel.v with the assert lines of string_util/Samc.hpp.
    [Throw] stands for a failed assertion, which aborts the program. The assertion of line 225 compares an unsigned number with zero and always holds. *)
From Coq Require Import List NArith ZArith Arith Bool.
From Verif Require Import Base BitUtilModel BitVectorModel SuccinctModel SamcModel FoDebugModel.
Import ListNotations.
Local Open Scope nat_scope.

(** storage_map.count(index) and storage_map[index], for the map left by a list of writes; an absent key is created with 0 *)
Definition map_count (m : list (nat * N)) (i : nat) : bool := existsb (fun w => fst w =? i) m.
Definition map_get (m : list (nat * N)) (i : nat) : N := fold_left (fun r w => if fst w =? i then snd w else r) m 0%N.
(** Samc.hpp:154-164 with the assertions of lines 158 and 159 *)
Definition collect_d (map0 : list (nat * N)) (queue : list (nat * list (list N))) (d head : nat) : res (list (N * nat * list (list N))) :=
  foldM (fun acc q =>
    do _ <- assert_that (map_count map0 (fst q));
    do _ <- assert_that (negb (map_get map0 (fst q) =? 0)%N);
    do es <- explore (snd q) d; Ok (acc ++ map (fun e => (fst e, fst q - head, snd e)) es)) queue [].
(** Samc.hpp:187-200, one iteration, with the assertion of line 192 *)
Definition place_d (h0 h1 : nat) (c : N) (code : N) (st : level) (e : N * nat * list (list N)) : res level :=
  do _ <- assert_that (negb (map_count (lv_map st) (h0 + snd (fst e) + N.to_nat code)));
  place h0 h1 c code st e.
(** Samc.hpp:171-201, one iteration *)
Definition char_step_d (legacy : bool) (h0 h1 : nat) (edges : list (N * nat * list (list N))) (st : level) (ci : nat) : res level :=
  let c := N.of_nat ci in
  let mine := filter (fun e => (fst (fst e) =? c)%N) edges in
  let indices := map (fun e => snd (fst e)) mine in
  match indices with
  | [] => Ok st
  | _ :: _ =>
      let height := 1 + max_index indices - min_index indices in
      do bv <- (if bv_size (lv_bv st) <? lv_max st + height then bv_resize (lv_bv st) (lv_max st + height) true else Ok (lv_bv st));
      do y <- (if legacy then y_check_legacy (S (bv_size bv)) indices bv (- Z.of_nat (min_index indices)) else y_check indices bv);
      let code := Z.to_N (Z.of_nat (h1 - h0) + y) in
      do row <- lset (lv_row st) ci code;
      foldM (place_d h0 h1 c code) mine {| lv_bv := bv; lv_max := lv_max st; lv_row := row; lv_map := lv_map st; lv_queue := lv_queue st |}
  end.
(** Samc.hpp:145-209 *)
Fixpoint build_levels_d (legacy : bool) (fuel d h0 h1 : nat) (head : list nat) (codes : list (list N)) (map : list (nat * N)) (queue : list (nat * list (list N))) : res (list nat * list (list N) * list (nat * N)) :=
  match queue with
  | [] => Ok (head, codes, map)
  | _ :: _ =>
      match fuel with
      | O => Fuel
      | S fuel =>
          do edges <- collect_d map queue d h0;
          do st <- foldM (char_step_d legacy h0 h1 edges) (seq 0 256) {| lv_bv := bv_default; lv_max := 0; lv_row := repeat 0%N 256; lv_map := map; lv_queue := [] |};
          build_levels_d legacy fuel (S d) h1 (h1 + lv_max st) (head ++ [h1 + lv_max st]) (codes ++ [lv_row st]) (lv_map st) (lv_queue st)
      end
  end.
(** Samc.hpp:135-216 *)
Definition sm_build_d (legacy : bool) (fuel : nat) (keys : list (list N)) : res samc :=
  do r <- build_levels_d legacy fuel 0 0 1 [0; 1] [] [(0, 94%N)] [(0, keys)];
  let '(head, codes, map) := r in
  do storage <- foldM (fun s w => lset s (fst w) (snd w)) map (repeat 255%N (last head 0));
  Ok {| sm_storage := storage; sm_codes := codes; sm_head := head |}.

(** Samc.hpp:366-373 after the construction with assertions *)
Definition sd_build_d (fuel : nat) (keys : list (list N)) : res samc_dict :=
  do s <- sm_build_d false fuel keys;
  do src <- foldM (fun v i => do b <- sm_check s i; if (b =? 0)%N then bv_set v i true else Ok v) (seq 1 (length (sm_storage s) - 1)) (bv_sized (length (sm_storage s)));
  do leaves <- sb_build true src;
  Ok {| sd_samc := s; sd_leaves := leaves |}.
(** Samc.hpp:439-459 with the assertion of line 376 in id; the one of line 431 is about depth + 1, which is positive *)
Definition sd_lookup_d (t : samc_dict) (key : list N) : res (option N) :=
  do r <- sm_terminal (sd_samc t) key;
  match r with None => Ok None | Some i => do b <- bv_get (sb_bits (sd_leaves t)) i; do _ <- assert_that b; do id <- sb_rank (sd_leaves t) i; Ok (Some id) end.
(** Samc.hpp:467-473 with the assertions of lines 469 and 473; a node number below zero wraps: outside the storage if the loop goes on, and not zero if it ends *)
Fixpoint sd_climb_d (s : samc) (node d : nat) (text : list N) : res (list N) :=
  match d with
  | O => do _ <- assert_that (node =? 0); Ok text
  | S d => do c <- sm_check s node; do _ <- assert_that (negb (c =? 255)%N); do code <- sm_code s d c;
           if (N.of_nat node <? code)%N then match d with O => Throw | S _ => UB end else sd_climb_d s (node - N.to_nat code) d (c :: text)
  end.
(** Samc.hpp:461-475 *)
Definition sd_access_d (selw : N -> N -> res N) (t : samc_dict) (value : nat) : res (list N) :=
  do node <- sb_select selw (sd_leaves t) value;
  do text <- sd_climb_d (sd_samc t) (N.to_nat node) (upper_depth (sm_head (sd_samc t)) (N.to_nat node)) [];
  match text with [] => UB | _ => Ok (removelast text) end.
