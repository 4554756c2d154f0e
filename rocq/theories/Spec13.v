(** Specification of reading from a stream which may end too early, independent of the models. *)
From Coq Require Import List NArith.
Import ListNotations.

Definition byte (b : N) : Prop := (b < 256)%N.
(** The bytes [bs] are read as an object with the image [image], leaving [rest] in a stream which is [good]: the image stands at the front;
    or the stream ends early, not before the last array of the image, and the bytes missing there are those which were in this place before, [old]. *)
Definition reads (bs image old : list N) (st : list N * bool) : Prop :=
  (exists rest, bs = image ++ rest /\ st = (rest, true)) \/
  (exists k, 0 < k <= length old /\ bs ++ skipn (length old - k) old = image /\ st = ([], false)).
