(** Model of string_util/Samc.hpp.
    The code_type is assumed wide enough: codes and heads are not truncated (SamcWidthModel.v has the truncations). Sizes stay below 2^63.
    The constructors from a Trie only throw and are left out; Write, Read and size_in_bytes are in StringStreamModel.v. *)
From Coq Require Import List NArith ZArith Arith Bool.
From Verif Require Import Base BitUtilModel BitVectorModel SuccinctModel.
Import ListNotations.
Local Open Scope nat_scope.

(** std::string::operator[]: the position behind the last character reads as zero *)
Definition char_at (k : list N) (d : nat) : res N := if d <? length k then lget k d else if d =? length k then Ok 0%N else UB.
(** Samc.hpp:47-49: the keys from [it] on which have [c] at this depth, and the rest *)
Fixpoint take_group (keys : list (list N)) (d : nat) (c : N) : res (list (list N) * list (list N)) :=
  match keys with
  | [] => Ok ([], [])
  | k :: rest =>
      do b <- char_at k d;
      if (b =? c)%N then do r <- take_group rest d c; Ok (k :: fst r, snd r) else Ok ([], keys)
  end.
(** Samc.hpp:45-52 *)
Fixpoint edge_groups (fuel : nat) (keys : list (list N)) (d : nat) : res (list (N * list (list N))) :=
  match keys with
  | [] => Ok []
  | k :: _ =>
      match fuel with
      | O => Fuel
      | S fuel =>
          do c <- char_at k d;
          do r <- take_group keys d c;
          do l <- edge_groups fuel (snd r) d;
          Ok ((c, fst r) :: l)
      end
  end.
(** Samc.hpp:43 *)
Fixpoint skip_ended (keys : list (list N)) (d : nat) : list (list N) :=
  match keys with [] => [] | k :: rest => if length k =? d then skip_ended rest d else keys end.
(** Samc.hpp:37-53; the explorer holds the keys from begin_ to end_; begin_ is dereferenced *)
Definition explore (keys : list (list N)) (d : nat) : res (list (N * list (list N))) :=
  match keys with
  | [] => UB
  | k :: rest =>
      if length k =? d then do l <- edge_groups (length rest) (skip_ended rest d) d; Ok ((0%N, []) :: l)
      else edge_groups (length keys) keys d
  end.

Record samc := { sm_storage : list N; sm_codes : list (list N); sm_head : list nat }.
(** Samc.hpp:85-89 *)
Definition sm_check (s : samc) (i : nat) : res N := lget (sm_storage s) i.
Definition sm_code (s : samc) (d : nat) (c : N) : res N := do row <- lget (sm_codes s) d; lget row (N.to_nat c).
Definition sm_headat (s : samc) (d : nat) : res nat := lget (sm_head s) d.

(** Samc.hpp:154-164: the entries of indices_table and node_table, in the order in which they are pushed *)
Definition collect (queue : list (nat * list (list N))) (d head : nat) : res (list (N * nat * list (list N))) :=
  foldM (fun acc q => do es <- explore (snd q) d; Ok (acc ++ map (fun e => (fst e, fst q - head, snd e)) es)) queue [].
Definition min_index (l : list nat) : nat := fold_left Nat.min l (hd 0 l).
Definition max_index (l : list nat) : nat := fold_left Nat.max l (hd 0 l).
(** Samc.hpp:222-224 *)
Definition field_bits (v : bitvec) (i : nat) : res N := if i <? (bv_size v - 1) / 64 + 1 then lget (bv_words v) i else Ok 0%N.
(** Samc.hpp:230-240 *)
Fixpoint candidates (v : bitvec) (heads i : nat) (cand : N) (indices : list nat) : res N :=
  match indices with
  | [] => Ok cand
  | id :: rest =>
      let p := (id - heads) / 64 in
      let insets := (id - heads) mod 64 in
      do m <- (if insets =? 0 then field_bits v (p + i)
               else do a <- field_bits v (p + i); do a <- shr64 a (N.of_nat insets);
                    do b <- field_bits v (p + i + 1); do b <- shl64 b (N.of_nat (64 - insets)); Ok (N.lor a b));
      let cand := N.land cand m in
      if (cand =? 0)%N then Ok cand else candidates v heads i cand rest
  end.
(** Samc.hpp:228-243 *)
Fixpoint y_loop (v : bitvec) (heads : nat) (indices : list nat) (is : list nat) : res (option Z) :=
  match is with
  | [] => Ok None
  | i :: is =>
      do cand <- candidates v heads i (2 ^ 64 - 1)%N indices;
      if (cand =? 0)%N then y_loop v heads indices is else Ok (Some (Z.of_nat (64 * i) + Z.of_N (ctz64 cand) - Z.of_nat heads)%Z)
  end.
(** Samc.hpp:218-245; the sizes are unsigned, the sum in line 226 does not wrap because the vector is large enough *)
Definition y_check (indices : list nat) (v : bitvec) : res Z :=
  let front := hd 0 indices in
  let back := last indices 0 in
  let heads := min_index indices in
  do r <- y_loop v heads indices (seq 0 ((bv_size v + front - back) / 64 + 1));
  match r with Some y => Ok y | None => Ok (Z.of_nat (bv_size v + front) - Z.of_nat back)%Z end.
(** Samc.hpp:251-257 *)
Definition all_empty (v : bitvec) (front : Z) (indices : list nat) : res bool :=
  foldM (fun found id => let p := (front + Z.of_nat id)%Z in if (p <? 0)%Z then UB else do b <- bv_get v (Z.to_nat p); Ok (found && b)) indices true.
(** Samc.hpp:247-261 *)
Fixpoint y_check_legacy (fuel : nat) (indices : list nat) (v : bitvec) (front : Z) : res Z :=
  match fuel with
  | O => Fuel
  | S fuel => do found <- all_empty v front indices; if found then Ok front else y_check_legacy fuel indices v (front + 1)%Z
  end.

(** the state of the loop over the characters: empty_bv, max_height, the row of code_table_, the writes to storage_map, node_queue *)
Record level := { lv_bv : bitvec; lv_max : nat; lv_row : list N; lv_map : list (nat * N); lv_queue : list (nat * list (list N)) }.
(** Samc.hpp:187-200, one iteration *)
Definition place (h0 h1 : nat) (c : N) (code : N) (st : level) (e : N * nat * list (list N)) : res level :=
  let index := h0 + snd (fst e) + N.to_nat code in
  let inset := index - h1 in
  do bv <- bv_set (lv_bv st) inset false;
  Ok {| lv_bv := bv; lv_max := Nat.max (lv_max st) (inset + 1); lv_row := lv_row st; lv_map := lv_map st ++ [(index, c)];
        lv_queue := if (c =? 0)%N then lv_queue st else lv_queue st ++ [(index, snd e)] |}.
(** Samc.hpp:171-201, one iteration; the code is the sum of a size_t and a long long, converted to size_t: y is at least -min, which is less than h1 - h0 *)
Definition char_step (legacy : bool) (h0 h1 : nat) (edges : list (N * nat * list (list N))) (st : level) (ci : nat) : res level :=
  let c := N.of_nat ci in
  let mine := filter (fun e => (fst (fst e) =? c)%N) edges in
  let indices := map (fun e => snd (fst e)) mine in
  match indices with
  | [] => Ok st
  | _ :: _ =>
      let height := 1 + max_index indices - min_index indices in
      do bv <- (if bv_size (lv_bv st) <? lv_max st + height then bv_resize (lv_bv st) (lv_max st + height) true else Ok (lv_bv st));
      do y <- (if legacy then y_check_legacy (S (bv_size bv)) indices bv (- Z.of_nat (min_index indices)) else y_check indices bv);
      let code := Z.to_N (Z.of_nat (h1 - h0) + y) in
      do row <- lset (lv_row st) ci code;
      foldM (place h0 h1 c code) mine {| lv_bv := bv; lv_max := lv_max st; lv_row := row; lv_map := lv_map st; lv_queue := lv_queue st |}
  end.
(** Samc.hpp:145-209; [head] is head_ so far, h0 and h1 its last two elements *)
Fixpoint build_levels (legacy : bool) (fuel d h0 h1 : nat) (head : list nat) (codes : list (list N)) (map : list (nat * N)) (queue : list (nat * list (list N))) : res (list nat * list (list N) * list (nat * N)) :=
  match queue with
  | [] => Ok (head, codes, map)
  | _ :: _ =>
      match fuel with
      | O => Fuel
      | S fuel =>
          do edges <- collect queue d h0;
          do st <- foldM (char_step legacy h0 h1 edges) (seq 0 256) {| lv_bv := bv_default; lv_max := 0; lv_row := repeat 0%N 256; lv_map := map; lv_queue := [] |};
          build_levels legacy fuel (S d) h1 (h1 + lv_max st) (head ++ [h1 + lv_max st]) (codes ++ [lv_row st]) (lv_map st) (lv_queue st)
      end
  end.
(** Samc.hpp:135-216; the writes are applied in the order in which they were made *)
Definition sm_build (legacy : bool) (fuel : nat) (keys : list (list N)) : res samc :=
  do r <- build_levels legacy fuel 0 0 1 [0; 1] [] [(0, 94%N)] [(0, keys)];
  let '(head, codes, map) := r in
  do storage <- foldM (fun s w => lset s (fst w) (snd w)) map (repeat 255%N (last head 0));
  Ok {| sm_storage := storage; sm_codes := codes; sm_head := head |}.

(** Samc.hpp:308-311 and 430-433 *)
Definition in_range (s : samc) (index d : nat) : res bool :=
  do a <- sm_headat s d;
  if a <=? index then do b <- sm_headat s (d + 1); Ok (index <? b) else Ok false.
(** Samc.hpp:322-330 and 444-452; the node reached *)
Fixpoint sm_descend (s : samc) (node d : nat) (key : list N) : res (option nat) :=
  match key with
  | [] => Ok (Some node)
  | c :: key =>
      do code <- sm_code s d c;
      let target := node + N.to_nat code in
      do ok <- in_range s target (d + 1);
      if negb ok then Ok None else
      do b <- sm_check s target;
      if negb (b =? c)%N then Ok None else sm_descend s target (d + 1) key
  end.
(** Samc.hpp:319-334, 441-457: the terminal reached *)
Definition sm_terminal (s : samc) (key : list N) : res (option nat) :=
  do r <- sm_descend s 0 0 key;
  match r with
  | None => Ok None
  | Some node =>
      do code <- sm_code s (length key) 0%N;
      let terminal := node + N.to_nat code in
      do ok <- in_range s terminal (length key + 1);
      if negb ok then Ok None else
      do b <- sm_check s terminal; Ok (if (b =? 0)%N then Some terminal else None)
  end.
Definition sm_accept (s : samc) (key : list N) : res bool := do r <- sm_terminal s key; Ok (match r with Some _ => true | None => false end).

Record samc_dict := { sd_samc : samc; sd_leaves : sbv }.
(** Samc.hpp:366-373 *)
Definition sd_build (fuel : nat) (keys : list (list N)) : res samc_dict :=
  do s <- sm_build false fuel keys;
  do src <- foldM (fun v i => do b <- sm_check s i; if (b =? 0)%N then bv_set v i true else Ok v) (seq 1 (length (sm_storage s) - 1)) (bv_sized (length (sm_storage s)));
  do leaves <- sb_build true src;
  Ok {| sd_samc := s; sd_leaves := leaves |}.
(** Samc.hpp:439-459; [None] is kSearchError *)
Definition sd_lookup (t : samc_dict) (key : list N) : res (option N) :=
  do r <- sm_terminal (sd_samc t) key;
  match r with None => Ok None | Some i => do id <- sb_rank (sd_leaves t) i; Ok (Some id) end.
(** std::upper_bound - begin - 1 on the increasing heads *)
Definition upper_depth (head : list nat) (node : nat) : nat := length (filter (fun h => h <=? node) head) - 1.
(** Samc.hpp:467-472; the characters pushed, last one first; a node number below zero wraps far outside the storage *)
Fixpoint sd_climb (s : samc) (node d : nat) (text : list N) : res (list N) :=
  match d with
  | O => Ok text
  | S d => do c <- sm_check s node; do code <- sm_code s d c; if (N.of_nat node <? code)%N then match d with O => Ok (c :: text) | S _ => UB end else sd_climb s (node - N.to_nat code) d (c :: text)
  end.
(** Samc.hpp:461-475; [selw] is the select within a word; an empty text gives an invalid range *)
Definition sd_access (selw : N -> N -> res N) (t : samc_dict) (value : nat) : res (list N) :=
  do node <- sb_select selw (sd_leaves t) value;
  do text <- sd_climb (sd_samc t) (N.to_nat node) (upper_depth (sm_head (sd_samc t)) (N.to_nat node)) [];
  match text with [] => UB | _ => Ok (removelast text) end.
