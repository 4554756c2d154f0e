(** C102: the exact order of the positions in a SuffixArray. *)
From Coq Require Import List NArith ZArith Arith Bool Lia Permutation Sorted.
From Verif Require Import Base Spec5 Spec6 Spec12 FitVectorModel SuffixModel SaisDec SaisExact.
Import ListNotations.
Local Open Scope nat_scope.

(** the place of every position, for every string of bytes from 1 to 127 *)
Theorem C102_order : forall s, s <> [] -> Forall (fun c => (0 < c < 128)%N) s -> (N.of_nat (length s) < 2 ^ 31)%N ->
  exists sa lcp l, suffix_array s = Ok (sa, lcp) /\ fv_list sa = Ok (map N.of_nat l) /\ Permutation l (seq 0 (length s)) /\
  forall i j, i < length s -> j < length s -> listed_before s (nth i l 0) (nth j l 0) <-> i < j.
Proof. exact ctor_exact. Qed.
Print Assumptions C102_order.
(** the array is sorted exactly when the listing agrees with the suffixes wherever the stretches are equal *)
Theorem C102_sorted_iff : forall s, s <> [] -> Forall (fun c => (0 < c < 128)%N) s -> (N.of_nat (length s) < 2 ^ 31)%N ->
  exists sa lcp l, suffix_array s = Ok (sa, lcp) /\ fv_list sa = Ok (map N.of_nat l) /\
  (sorted_suffixes s l <-> forall p q, same_stretch s p q -> listed_before s p q -> lex_lt (skipn p s) (skipn q s)).
Proof. exact ctor_sorted_iff. Qed.
Print Assumptions C102_sorted_iff.

(** 2 1 3 1 2 1 3 1 2 1 3: valleys repeat, the reduced string is 3 1 3 1 2, its valleys do not repeat, and 0 is listed before 4 although its suffix is greater *)
Example C102_ex : exists sa lcp, let s := [2; 1; 3; 1; 2; 1; 3; 1; 2; 1; 3]%N in suffix_array s = Ok (sa, lcp) /\ fv_list sa = Ok [7; 3; 9; 5; 1; 8; 0; 4; 10; 6; 2]%N /\
  reduces s [3; 1; 3; 1; 2]%N /\ listed_before s 0 4 /\ lex_lt (skipn 4 s) (skipn 0 s).
Proof.
  eexists. eexists. cbv zeta. split; [vm_compute; reflexivity|]. split; [vm_compute; reflexivity|]. set (s := [2; 1; 3; 1; 2; 1; 3; 1; 2; 1; 3]%N).
  assert (R : reduces s [3; 1; 3; 1; 2]%N).
  { exists [1; 3; 5; 7; 9]. split; [repeat (constructor; try lia)|]. split; [|split; [reflexivity|split]].
    - intros i. destruct (le_lt_dec 11 i) as [H|H]. { cbn [In]. unfold s. cbn [length]. lia. }
      rewrite <- valleyb_spec. do 11 (destruct i as [|i]; [vm_compute; intuition (congruence || lia)|]). lia.
    - intros a b A B. rewrite <- ltb_spec, <- stretchb_spec. cbn [length] in A, B. do 5 (destruct a as [|a]; [do 5 (destruct b as [|b]; [vm_compute; intuition congruence|]); lia|]). lia.
    - intros v (x & X & V). cbn [In] in *. lia. }
  split; [exact R|]. split; [|apply ltb_spec; vm_compute; reflexivity].
  apply (before_reduced s [3; 1; 3; 1; 2]%N 1 5 0 4 0 2); try (apply valleyb_spec; vm_compute; reflexivity); try (apply stretchb_spec; vm_compute; reflexivity); auto.
  - exists []. split; [constructor|]. split; [|reflexivity]. intros i. rewrite <- valleyb_spec. cbn [In]. destruct i; [vm_compute; intuition congruence|lia].
  - exists [1; 3]. split; [repeat (constructor; try lia)|]. split; [|reflexivity]. intros i. rewrite <- valleyb_spec. cbn [In]. do 5 (destruct i as [|i]; [vm_compute; intuition (congruence || lia)|]). lia.
  - apply before_text; [|apply stretchb_spec; vm_compute; reflexivity|lia]. intros x y Vx Vy. assert (Lx : x <= 5) by (destruct Vx as [[_ H] _]; exact H). assert (Ly : y <= 5) by (destruct Vy as [[_ H] _]; exact H).
    apply valleyb_spec in Vx, Vy. rewrite <- stretchb_spec. do 6 (destruct x as [|x]; [first [vm_compute in Vx; discriminate Vx|do 6 (destruct y as [|y]; [first [vm_compute in Vy; discriminate Vy|vm_compute; congruence]|]); lia]|]). lia.
Qed.
(** 3 1 3 1 2 1 3 1 2 1 3 is sorted, although its reduced string 3 1 3 1 2 is not *)
Example C102_ex2 : exists sa lcp sa' lcp', suffix_array [3; 1; 3; 1; 2; 1; 3; 1; 2; 1; 3]%N = Ok (sa, lcp) /\ fv_list sa = Ok [7; 3; 9; 5; 1; 8; 4; 10; 6; 2; 0]%N /\
  suffix_array [3; 1; 3; 1; 2]%N = Ok (sa', lcp') /\ fv_list sa' = Ok [3; 1; 4; 0; 2]%N /\ lex_lt (skipn 2 [3; 1; 3; 1; 2]%N) (skipn 0 [3; 1; 3; 1; 2]%N).
Proof. do 4 eexists. split; [vm_compute; reflexivity|]. split; [vm_compute; reflexivity|]. split; [vm_compute; reflexivity|]. split; [vm_compute; reflexivity|]. apply ltb_spec. vm_compute. reflexivity. Qed.
