(** C111: ShowAsBinary. *)
From Coq Require Import List NArith ZArith Ascii Lia.
From Verif Require Import Base Spec17 LogModel LogProof.
Import ListNotations.
Local Open Scope Z_scope.

(** [w]: the width of the type in bits; the values of a type narrower than int are promoted to int *)
Theorem C111_show : forall w v size, w <= 64 -> 0 <= size < 2 ^ 64 -> let m := size mod 2 ^ 29 in
  (m = 0 \/ 2 ^ 28 < m -> show_as_binary w v size = Ok [newline]) /\
  (0 < m <= 2 ^ 28 -> 8 * m <= Z.max 32 w -> show_as_binary w v size = Ok (binary_line v (Z.to_nat m))) /\
  (0 < m <= 2 ^ 28 -> Z.max 32 w < 8 * m -> show_as_binary w v size = UB).
Proof. exact show_exact. Qed.
Print Assumptions C111_show.
Theorem C111_default_size : forall n v, (1 <= n <= 8)%nat -> show_as_binary (8 * Z.of_nat n) v (Z.of_nat n) = Ok (binary_line v n).
Proof. exact show_default. Qed.
Print Assumptions C111_default_size.
Example C111_show_example : show_as_binary 16 (-3) 2 = Ok (["1"; "1"; "1"; "1"; "1"; "1"; "1"; "1"; " "; "1"; "1"; "1"; "1"; "1"; "1"; "0"; "1"; " "; newline])%char /\
  show_as_binary 8 5 1 = Ok (["0"; "0"; "0"; "0"; "0"; "1"; "0"; "1"; " "; newline])%char /\ show_as_binary 8 5 5 = UB /\ show_as_binary 64 5 9 = UB /\ show_as_binary 8 5 (2 ^ 29) = Ok [newline].
Proof. vm_compute. auto. Qed.
Theorem C111_tells_apart : forall n s a b, (0 < n)%nat -> in_type (8 * Z.of_nat n) s a -> in_type (8 * Z.of_nat n) s b -> binary_line a n = binary_line b n -> a = b.
Proof. exact line_injective. Qed.
Print Assumptions C111_tells_apart.
Example C111_tells_apart_example : in_type 16 true (-3) /\ in_type 16 true 32765 /\ binary_line (-3) 2 <> binary_line 32765 2.
Proof. vm_compute. repeat split; discriminate. Qed.
