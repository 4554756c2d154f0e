(** A CDRWArray one of whose tables has filled up. *)
From Coq Require Import List NArith ZArith Arith Bool Lia.
From Verif Require Import Base Spec4 FitVectorModel CHTModel CHTLimits CDRWModel.
Import ListNotations.
Local Open Scope nat_scope.

Definition full_writes : list (nat * N) := [(37, 2%N); (7, 2%N); (2, 1%N); (2, 0%N); (3, 2%N); (2, 1%N); (2, 0%N); (53, 2%N); (14, 1%N); (14, 0%N); (55, 2%N); (36, 2%N)].
Definition full_array : cdrw := match cdrw_run 64 full_writes with Ok a => a | _ => CDRW 0 (fv_make 64) [] end.
Definition full_tab : cht := nth 1 (cd_tables full_array) cht_zero.
Lemma full_array_run : cdrw_run 64 full_writes = Ok full_array.
Proof. vm_compute. reflexivity. Qed.
Lemma full_array_ends : In full_tab (cd_tables full_array) /\ ch_used full_tab = ch_bucket full_tab /\ cdrw_set full_array 0 2 = Fuel /\ (forall fuel i, i < ch_bucket full_tab -> find_null fuel full_tab i = Fuel).
Proof.
  split; [vm_compute; auto|]. split; [vm_compute; reflexivity|]. split; [vm_compute; reflexivity|].
  assert (B : ch_bucket full_tab = 4) by (vm_compute; reflexivity). intros fuel i Hi. apply find_null_endless; [|lia|auto]. rewrite B.
  intros j Hj. do 4 (destruct j as [|j]; [eexists; split; vm_compute; reflexivity|]). exfalso. lia.
Qed.
