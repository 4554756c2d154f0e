(** Properties C15 (FitVector part), C19, C20, C21 and C85 (FitVector.hpp, BitsReference.hpp). *)
From Coq Require Import List NArith ZArith Lia Bool Arith.
From Verif Require Import Base Spec Spec7 FitVectorModel FitVectorProof FitVectorProof2.
Import ListNotations.
Local Open Scope nat_scope.

(** ** C15 *)
(** Missing: widths 0 and 64, values wider than the elements, growth by resize(n) after a shrink (see C21). *)
Theorem C15_fitvector_at_partial : forall w ops l g, 1 <= w <= 63 -> Forall (op_fits w) ops -> nums_run ([], true) ops = Some (l, g) ->
  plain_growth_first ([], true) ops ->
  exists v, fv_run (fv_make w) ops = Ok v /\
    forall i, fv_at v i = match nth_error l i with Some x => Ok x | None => Throw end.
Proof.
  intros w ops l g Hw F E P. destruct (fv_history w ops l g Hw F E P) as (v & S & _ & _ & A). exists v. auto.
Qed.
Print Assumptions C15_fitvector_at_partial.
Example C15_fitvector_at_ex : (do v <- fv_run (fv_make 7) [FVPush 100; FVPush 3]; fv_at v 1) = Ok 3%N /\
  (do v <- fv_run (fv_make 7) [FVPush 100; FVPush 3]; fv_at v 2) = Throw.
Proof. split; vm_compute; reflexivity. Qed.

(** Whatever the width and contents, an index outside the vector throws and an index inside does not. *)
Theorem C15_fitvector_at_throws : forall v i, fv_at v i = Throw <-> fv_size v <= i.
Proof.
  intros. unfold fv_at. destruct (Nat.leb_spec (fv_size v) i); [tauto|]. split; [|lia]. intro E. exfalso. revert E.
  apply bits_read_no_throw.
Qed.
Print Assumptions C15_fitvector_at_throws.
Example C15_fitvector_at_throws_ex : fv_at (fv_sized 5 10) 10 = Throw /\ fv_at (fv_sized 5 10) 9 = Ok 0%N.
Proof. split; vm_compute; reflexivity. Qed.

(** ** C19 *)
(** Missing: widths 0 and 64 and values that do not fit the width. *)
Theorem C19_write_independent_partial : forall w n ws i x, 1 <= w <= 63 -> length ws = fv_word_size n w ->
  Forall (fun y => (y < 2 ^ 64)%N) ws -> i < n -> (x < 2 ^ N.of_nat w)%N ->
  exists v', fv_set (FV w n ws) i x = Ok v' /\ fv_size v' = n /\ length (fv_words v') = length ws /\
   fv_get v' i = Ok x /\ forall j, j < n -> j <> i -> exists y, fv_get (FV w n ws) j = Ok y /\ fv_get v' j = Ok y.
Proof. exact fv_write_independent. Qed.
Print Assumptions C19_write_independent_partial.
(** element 9 of width 7 spans two words *)
Example C19_ex : exists ws v', length ws = fv_word_size 20 7 /\ Forall (fun y => (y < 2 ^ 64)%N) ws /\
  fv_set (FV 7 20 ws) 9 85 = Ok v' /\ fv_get v' 9 = Ok 85%N /\ fv_get v' 10 = Ok 127%N.
Proof.
  exists [2 ^ 64 - 1; 2 ^ 64 - 1; 5]%N. eexists. split; [reflexivity|]. split; [repeat constructor; vm_compute; reflexivity|].
  split; [vm_compute; reflexivity|]. split; vm_compute; reflexivity.
Qed.

(** A value of 2^w or more is written over the next element. *)
Theorem C19_wide_value_refuted : exists w n ws i j x v', 1 <= w <= 63 /\ length ws = fv_word_size n w /\ i < n /\ j < n /\ i <> j /\
  (x < 2 ^ 64)%N /\ fv_set (FV w n ws) i x = Ok v' /\ exists a b, fv_get (FV w n ws) j = Ok a /\ fv_get v' j = Ok b /\ a <> b.
Proof.
  exists 4, 3, [0%N], 0, 1, 16%N. eexists. do 6 (split; [vm_compute; auto; try lia|]). split; [vm_compute; reflexivity|].
  do 2 eexists. split; [vm_compute; reflexivity|]. split; [vm_compute; reflexivity|]. discriminate.
Qed.
Print Assumptions C19_wide_value_refuted.

(** With the default width of 64 no element can be read or written. *)
Theorem C19_width_64_undefined : forall n ws i x, fv_get (FV 64 n ws) i = UB /\ fv_set (FV 64 n ws) i x = UB.
Proof. intros. split; reflexivity. Qed.
Print Assumptions C19_width_64_undefined.

(** the constructor with a value (Missing: as above) *)
Theorem C19_filled_partial : forall w n x, 1 <= w <= 63 -> (x < 2 ^ N.of_nat w)%N ->
  exists v, fv_filled w n x = Ok v /\ fv_size v = n /\ fv_width v = w /\ forall i, i < n -> fv_get v i = Ok x.
Proof.
  intros w n x Hw Hx. destruct (fv_assign_rep (fv_make w) [] true n x (fv_make_rep w Hw) Hx) as (v & E & W & R). exists v. split; [exact E|].
  assert (L : fv_size v = n) by (destruct R as (_ & L & _); rewrite L; apply repeat_length).
  split; [exact L|]. split; [exact W|]. intros i Hi. rewrite (fv_get_rep v _ _ i R) by (rewrite repeat_length; auto). f_equal. apply (repeat_spec n). apply nth_In. now rewrite repeat_length.
Qed.
Print Assumptions C19_filled_partial.
Example C19_filled_ex : (do v <- fv_filled 7 20 85; fv_get v 9) = Ok 85%N.
Proof. vm_compute; reflexivity. Qed.

(** ** C20 *)
(** Missing: vectors with a value of 2^63 or more. *)
Theorem C20_from_values_partial : forall l, Forall (fun x => (x < 2 ^ 63)%N) l ->
  exists v, fv_of_list l = Ok v /\ fv_size v = length l /\ (forall i x, nth_error l i = Some x -> fv_get v i = Ok x) /\
  (l <> [] -> 1 <= fv_width v /\ Forall (fun x => (x < 2 ^ N.of_nat (fv_width v))%N) l /\
     forall k, 1 <= k -> Forall (fun x => (x < 2 ^ N.of_nat k)%N) l -> fv_width v <= k).
Proof. exact fv_of_list_stmt. Qed.
Print Assumptions C20_from_values_partial.
Example C20_ex : exists v, fv_of_list [5; 1000; 0; 2 ^ 40; 77]%N = Ok v /\ fv_width v = 41 /\ fv_get v 3 = Ok (2 ^ 40)%N.
Proof. eexists. split; [vm_compute; reflexivity|]. split; vm_compute; reflexivity. Qed.

Theorem C20_top_values_refuted : exists l, Forall (fun x => (x < 2 ^ 64)%N) l /\ fv_of_list l = UB.
Proof. exists [2 ^ 63]%N. split; [repeat constructor; vm_compute; reflexivity|vm_compute; reflexivity]. Qed.
Print Assumptions C20_top_values_refuted.

Theorem C20_top_values_undefined : forall l x, In x l -> (2 ^ 63 <= x)%N -> fv_of_list l = UB.
Proof. exact fv_of_list_UB. Qed.
Print Assumptions C20_top_values_undefined.
Example C20_top_ex : In (2 ^ 63 + 1)%N [1; 2 ^ 63 + 1]%N.
Proof. simpl. auto. Qed.

(** ** C21 *)
(** Missing: widths 0 and 64, values that do not fit, and growth by resize(n) after a shrink. *)
Theorem C21_history_partial : forall w ops l g, 1 <= w <= 63 -> Forall (op_fits w) ops -> nums_run ([], true) ops = Some (l, g) ->
  plain_growth_first ([], true) ops ->
  exists v, fv_run (fv_make w) ops = Ok v /\ fv_size v = length l /\
    (forall i x, nth_error l i = Some x -> fv_get v i = Ok x).
Proof.
  intros w ops l g Hw F E P. destruct (fv_history w ops l g Hw F E P) as (v & S & A & B & _). exists v. auto.
Qed.
Print Assumptions C21_history_partial.
Example C21_ex : let ops := [FVResize 12; FVWrite 9 100; FVPush 7; FVAssign 4 3; FVResizeV 11 90] in
  Forall (op_fits 7) ops /\ nums_run ([], true) ops = Some (repeat 3 4 ++ repeat 90 7, false)%N /\ plain_growth_first ([], true) ops.
Proof.
  simpl. split; [repeat constructor|]. split; [reflexivity|]. repeat split.
Qed.
Theorem C21_front_back_partial : forall w ops l g, 1 <= w <= 63 -> Forall (op_fits w) ops -> nums_run ([], true) ops = Some (l, g) ->
  plain_growth_first ([], true) ops ->
  exists v, fv_run (fv_make w) ops = Ok v /\ forall x, (hd_error l = Some x -> fv_front v = Ok x) /\ (hd_error (rev l) = Some x -> fv_back v = Ok x).
Proof. exact fv_front_back. Qed.
Print Assumptions C21_front_back_partial.
Example C21_front_back_ex : (do v <- fv_run (fv_make 7) [FVPush 100; FVPush 5; FVPush 3]; fv_back v) = Ok 3%N /\
  (do v <- fv_run (fv_make 7) [FVPush 100; FVPush 5; FVPush 3]; fv_front v) = Ok 100%N.
Proof. split; vm_compute; reflexivity. Qed.

(** After a shrink, elements added by resize(n) show what was stored there before. *)
Theorem C21_resize_after_shrink_refuted : exists w ops l g i v y, 1 <= w <= 63 /\ Forall (op_fits w) ops /\
  nums_run ([], true) ops = Some (l, g) /\ i < length l /\
  fv_run (fv_make w) ops = Ok v /\ fv_get v i = Ok y /\ y <> nth i l 0%N.
Proof.
  exists 8, [FVAssign 3 255; FVResize 1; FVResize 3]%N. do 2 eexists. exists 2. do 2 eexists. split; [lia|].
  split; [repeat constructor|]. split; [reflexivity|]. split; [simpl; lia|]. split; [vm_compute; reflexivity|].
  split; [vm_compute; reflexivity|]. discriminate.
Qed.
Print Assumptions C21_resize_after_shrink_refuted.

(** ** C85 *)
Theorem C85_tape : forall w ops n T, 1 <= w <= 63 -> Forall op_word ops -> tape_run w (0, fun _ => false) ops = Some (n, T) ->
  exists v, fv_run (fv_make w) ops = Ok v /\ fv_size v = n /\ forall i, i < n -> fv_get v i = Ok (tape_num T (i * w) w).
Proof. exact fv_tape_history. Qed.
Print Assumptions C85_tape.
(** a value of 13 bits in elements of 7, stale bits behind a shrink *)
Example C85_tape_ex : let ops := [FVResize 12; FVWrite 8 8191; FVResize 3; FVResize 12]%N in
  Forall op_word ops /\ exists T, tape_run 7 (0, fun _ => false) ops = Some (12, T) /\
  map (fun i => tape_num T (i * 7) 7) (seq 0 12) = [0; 0; 0; 0; 0; 0; 0; 0; 127; 1; 0; 0]%N.
Proof. cbv zeta. split; [repeat constructor|]. eexists. split; [reflexivity|]. vm_compute. reflexivity. Qed.

(** One write: the element gets the low bits, the elements before it keep their values, and the following ones are or-ed with
    those higher bits of the value that lie in the same word (the same two words if the element spans two). *)
Theorem C85_write : forall w n ws i x, 1 <= w <= 63 -> length ws = fv_word_size n w -> Forall (fun y => (y < 2 ^ 64)%N) ws ->
  i < n -> (x < 2 ^ 64)%N ->
  exists v', fv_set (FV w n ws) i x = Ok v' /\ fv_size v' = n /\ length (fv_words v') = length ws /\
   fv_get v' i = Ok (x mod 2 ^ N.of_nat w)%N /\
   forall j, j < n -> j <> i -> exists y, fv_get (FV w n ws) j = Ok y /\
     fv_get v' j = Ok (if j <? i then y else
       N.lor y (N.shiftr (x mod 2 ^ N.of_nat (word_end (i * w + w) - i * w)%nat) (N.of_nat ((j - i) * w)) mod 2 ^ N.of_nat w)%N).
Proof. exact fv_wide_write. Qed.
Print Assumptions C85_write.
Example C85_write_ex : (do v <- fv_set (FV 4 20 [2 ^ 10; 0]%N) 1 (16 * 3 + 5); do a <- fv_get v 1; do b <- fv_get v 2; Ok (a, b)) = Ok (5, 7)%N.
Proof. vm_compute; reflexivity. Qed.

(** Shrinking to m elements and growing again brings back the bits that lie in the words m elements need. *)
Theorem C85_regrow : forall w n ws m k j, 1 <= w <= 63 -> length ws = fv_word_size n w -> Forall (fun y => (y < 2 ^ 64)%N) ws ->
  m <= n -> m <= j < n -> j < k ->
  exists y, fv_get (FV w n ws) j = Ok y /\
    fv_get (fv_resize (fv_resize (FV w n ws) m) k) j = Ok (y mod 2 ^ N.of_nat (word_end (m * w) - j * w))%N.
Proof. exact fv_regrow. Qed.
Print Assumptions C85_regrow.
(** element 9 keeps the bit that lies in the first word *)
Example C85_regrow_ex : (do v <- fv_filled 7 20 127; Ok (map (fun j => fv_get (fv_resize (fv_resize v 3) 20) j) [8; 9; 10])) = Ok [Ok 127; Ok 1; Ok 0]%N.
Proof. vm_compute; reflexivity. Qed.

(** With width 0 (what the constructor from an empty vector chooses) no element can be read or written. *)
Theorem C85_width_0 : forall ops v, fv_run (fv_make 0) ops = Ok v -> forall i x, fv_get v i = UB /\ fv_set v i x = UB.
Proof. exact fv_width_0. Qed.
Print Assumptions C85_width_0.
Example C85_width_0_ex : exists v, fv_run (fv_make 0) [FVResize 5; FVAssign 0 3] = Ok v.
Proof. eexists. vm_compute; reflexivity. Qed.
