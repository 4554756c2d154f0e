(** C137: the memory of a DacVector. *)
From Coq Require Import List NArith Arith Bool Lia.
From Verif Require Import Base Spec CalcModel FitVectorModel SuccinctModel DacModel SplitSpec Spec31 DacSpaceModel DacSpace.
Import ListNotations.
Local Open Scope nat_scope.

(** with widths given: the words held, and the chunks in each layer, follow from the values and the widths *)
Theorem C137_words : forall units l d, l <> [] -> units <> [] -> dac_of_list l units = Ok d -> N.of_nat (dac_words d) = level_words l 0 units.
Proof. intros units l d Hl Hu E. exact (proj1 (dac_space units l d Hl Hu E)). Qed.
Print Assumptions C137_words.
Theorem C137_chunks : forall units l d k, l <> [] -> units <> [] -> dac_of_list l units = Ok d ->
  length (dac_counts d) = length units /\ (k < length units -> N.of_nat (nth k (dac_counts d) 0) = wider l (list_sum_nat (firstn k units))).
Proof. exact dac_chunks. Qed.
Print Assumptions C137_chunks.
(** 200 values, a quarter of them 9 bits wide: 200 * 4 bits, 200 bits and two words of directory, 100 * 5 bits *)
Example C137_words_ex : let l := map (fun i => match i mod 4 with 0 => 300%N | 1 => 20%N | _ => N.of_nat (i mod 7) end) (seq 0 200) in
  (do d <- dac_of_list l [4; 5]; Ok (dac_words d, dac_counts d)) = Ok (13 + (4 + 2) + 8, [200; 100]) /\ level_words l 0 [4; 5] = 27%N.
Proof. vm_compute. auto. Qed.

(** without widths, with the stray iteration of C23 left out: the same, for the widths that are chosen *)
Theorem C137_auto_words : forall l d, l <> [] -> Forall (fun v => (v < 2 ^ 63)%N) l -> (N.of_nat (length l) < 2 ^ 57)%N -> dac_of_list_tolerant l [] = Ok d ->
  N.of_nat (dac_words d) = level_words l 0 (dac_units d).
Proof. exact dac_auto_space. Qed.
Print Assumptions C137_auto_words.
Example C137_auto_words_ex : let l := map (fun i => if i mod 16 =? 0 then 4000%N else N.of_nat (i mod 4)) (seq 0 400) in
  (do d <- dac_of_list_tolerant l []; Ok (dac_words d, dac_units d)) = Ok (13 + (7 + 2) + 4, [2; 10]) /\ level_words l 0 [2; 10] = 26%N.
Proof. vm_compute. auto. Qed.

(** the size that the split minimises is the real one up to 63 bits a level above and 191 bits an index below *)
Theorem C137_estimate : forall l ws, ws <> [] ->
  (split_cost l 0 ws <= 64 * level_words l 0 ws + 191 * N.of_nat (length ws - 1) /\ 64 * level_words l 0 ws <= split_cost l 0 ws + 63 * N.of_nat (length ws))%N.
Proof. intros l ws. exact (level_bounds l ws 0). Qed.
Print Assumptions C137_estimate.
(** two levels of one bit: for one value 126 bits more than estimated, for 511 values 125 bits less *)
Example C137_estimate_ex : let l k := repeat 1%N k ++ [2]%N in let real k := (64 * level_words (l k) 0%nat [1; 1]%nat)%N in
  (split_cost (l 0) 0 [1; 1], real 0) = (194, 320)%N /\ (split_cost (l 510) 0 [1; 1], real 510) = (1341, 1216)%N /\ (split_cost (l 511) 0 [1; 1], real 511) = (1344, 1344)%N.
Proof. vm_compute. auto. Qed.

(** hence no choice of widths that keeps all values takes much less, as long as no best split needs more than eight levels *)
Theorem C137_near_best : forall l, l <> [] -> Forall (fun v => (v < 2 ^ 63)%N) l -> (N.of_nat (length l) < 2 ^ 57)%N ->
  (forall best, best_split l best -> length best <= 8) ->
  exists d, dac_of_list_tolerant l [] = Ok d /\
  forall units d', units <> [] -> max_bits l <= list_sum_nat units -> dac_of_list l units = Ok d' ->
   (64 * N.of_nat (dac_words d) <= 64 * N.of_nat (dac_words d') + 63 * N.of_nat (length (dac_units d)) + 191 * N.of_nat (length units - 1))%N.
Proof. exact dac_auto_near_best. Qed.
Print Assumptions C137_near_best.
(** values below 256 never need more *)
Theorem C137_near_best_bytes : forall l, l <> [] -> Forall (fun v => (v < 256)%N) l -> (N.of_nat (length l) < 2 ^ 57)%N ->
  exists d, dac_of_list_tolerant l [] = Ok d /\
  forall units d', units <> [] -> max_bits l <= list_sum_nat units -> dac_of_list l units = Ok d' ->
   (64 * N.of_nat (dac_words d) <= 64 * N.of_nat (dac_words d') + 63 * N.of_nat (length (dac_units d)) + 191 * N.of_nat (length units - 1))%N.
Proof. exact dac_auto_near_best_bytes. Qed.
Print Assumptions C137_near_best_bytes.
(** two levels are chosen; one of eight bits, or three, take more *)
Example C137_near_best_ex : let l := map (fun i => if i mod 16 =? 0 then 200%N else N.of_nat (i mod 2)) (seq 0 400) in
  (do d <- dac_of_list_tolerant l []; Ok (dac_words d, dac_units d)) = Ok (19, [1; 7]) /\
  (do d <- dac_of_list l [8]; Ok (dac_words d)) = Ok 50 /\ (do d <- dac_of_list l [1; 1; 6]; Ok (dac_words d)) = Ok 23.
Proof. vm_compute. auto. Qed.
