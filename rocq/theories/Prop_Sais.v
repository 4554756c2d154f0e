(** C55, C70, C71, C72: the SuffixArray constructor on strings of bytes from 1 to 127. *)
From Coq Require Import List NArith ZArith Arith Bool Lia Permutation Sorted.
From Verif Require Import Base Spec5 Spec6 FitVectorModel StreamModel StringStreamModel SuffixModel SaisKey SaisCtor SaisDec.
Import ListNotations.
Local Open Scope nat_scope.

(** the constructor completes; the array is a permutation, and suffixes with different stretches stand in the right order *)
Theorem C71_completes : forall s, s <> [] -> Forall (fun c => (0 < c < 128)%N) s -> (N.of_nat (length s) < 2 ^ 31)%N ->
  exists sa lcp l a, suffix_array s = Ok (sa, lcp) /\ fv_list sa = Ok (map N.of_nat l) /\ Permutation l (seq 0 (length s)) /\
  (forall i j, i < j -> j < length l -> lex_lt (skipn (nth i l 0) s) (skipn (nth j l 0) s) \/ same_stretch s (nth i l 0) (nth j l 0)) /\
  fv_list lcp = Ok (map N.of_nat a) /\ length a = length s /\ forall p, p < length s -> (if S p <? length s then common_prefix (skipn (nth p l 0) s) (skipn (nth (S p) l 0) s) else 0) <= nth p a 0 <= length s.
Proof. exact ctor_ok. Qed.
Print Assumptions C71_completes.
(** in "babab" the stretches of 0 and 2 are equal, and only these two are in the wrong order *)
Example C71_ex : exists sa lcp, suffix_array [98; 97; 98; 97; 98]%N = Ok (sa, lcp) /\ fv_list sa = Ok [3; 1; 4; 0; 2]%N /\ same_stretch [98; 97; 98; 97; 98]%N 0 2 /\ ~ same_stretch [98; 97; 98; 97; 98]%N 1 3.
Proof.
  eexists. eexists. split; [vm_compute; reflexivity|]. split; [vm_compute; reflexivity|]. rewrite <- !stretchb_spec. split; [vm_compute; reflexivity|vm_compute; discriminate].
Qed.

(** the strings on which the result is known to be right *)
Theorem C72_sortable : forall s, s <> [] -> Forall (fun c => (0 < c < 128)%N) s -> (N.of_nat (length s) < 2 ^ 31)%N -> sortable s ->
  exists sa lcp l, suffix_array s = Ok (sa, lcp) /\ fv_list sa = Ok (map N.of_nat l) /\ sorted_suffixes s l /\
  fv_list lcp = Ok (map (fun p => N.of_nat (if S p <? length s then common_prefix (skipn (nth p l 0) s) (skipn (nth (S p) l 0) s) else 0)) (seq 0 (length s))).
Proof. exact ctor_sorted. Qed.
Print Assumptions C72_sortable.
(** exactly, when no two valleys have equal stretches *)
Theorem C72_first_pass : forall s, s <> [] -> Forall (fun c => (0 < c < 128)%N) s -> (N.of_nat (length s) < 2 ^ 31)%N -> (forall p q, valley s p -> valley s q -> same_stretch s p q -> p = q) ->
  exists sa lcp l, suffix_array s = Ok (sa, lcp) /\ fv_list sa = Ok (map N.of_nat l) /\ (sorted_suffixes s l <-> forall p q, p < q -> q < length s -> same_stretch s p q -> lex_lt (skipn p s) (skipn q s)).
Proof. exact ctor_iff. Qed.
Print Assumptions C72_first_pass.
Example C72_banana : sortable [98; 97; 110; 97; 110; 97]%N /\ filter (valleyb [98; 97; 110; 97; 110; 97]%N) (seq 0 7) = [1; 3; 6].
Proof. split; [apply firstb_sortable; vm_compute; reflexivity|vm_compute; reflexivity]. Qed.
(** "cababab": the stretches of 1 and 3 are equal, the reduced string is 2 2 1 *)
Example C72_reduced : sortable [99; 97; 98; 97; 98; 97; 98]%N /\ same_stretch [99; 97; 98; 97; 98; 97; 98]%N 1 3.
Proof.
  set (s := [99; 97; 98; 97; 98; 97; 98]%N). assert (V1 : valley s 1) by (apply valleyb_spec; vm_compute; reflexivity). assert (V3 : valley s 3) by (apply valleyb_spec; vm_compute; reflexivity).
  assert (E : same_stretch s 1 3) by (apply stretchb_spec; vm_compute; reflexivity). split; [|exact E]. apply (sortable_reduced s 1 3); auto.
  intros r (vs & SV & IV & L & O & D). assert (EV : vs = [1; 3; 5]) by (rewrite (valleys_list s vs SV IV); vm_compute; reflexivity). subst vs. clear IV SV. destruct r as [|a [|b [|c [|]]]]; try discriminate L. clear L.
  assert (AB : ~ (a < b)%N). { intros H. apply (O 0 1) in H; [|cbn; lia|cbn; lia]. destruct H as [_ H]. apply H. apply stretchb_spec. vm_compute. reflexivity. }
  assert (BA : ~ (b < a)%N). { intros H. apply (O 1 0) in H; [|cbn; lia|cbn; lia]. destruct H as [_ H]. apply H. apply stretchb_spec. vm_compute. reflexivity. }
  assert (CA : (c < a)%N). { apply (O 2 0); [cbn; lia|cbn; lia|]. split; [apply ltb_spec; vm_compute; reflexivity|]. intros H. apply stretchb_spec in H. vm_compute in H. discriminate. }
  assert (a = b) by lia. subst b. clear AB BA O.
  assert (D' : forall v, (v <= a)%N -> (0 < v)%N <-> v = a \/ v = c). { intros v Hv. rewrite (D v) by (exists a; split; [left; auto|auto]). cbn [In]. intuition congruence. }
  pose proof (D' 0%N) as D0. pose proof (D' 1%N) as D1. pose proof (D' 2%N) as D2. assert (a = 2 /\ c = 1)%N as [-> ->] by lia. apply firstb_sortable. vm_compute. reflexivity.
Qed.

(** the streams of the constructed object *)
Theorem C70_suffixarray_built : forall s, s <> [] -> Forall (fun c => (0 < c < 128)%N) s -> (N.of_nat (length s) < 2 ^ 31)%N ->
  exists a, suffix_array s = Ok a /\ forall rest, sufarr_read (sufarr_write s a ++ rest) = Ok ((s, a), rest).
Proof. exact ctor_stream. Qed.
Print Assumptions C70_suffixarray_built.
