(** C107: leading zeros, select and field extraction of every branch, for every argument. *)
From Coq Require Import List NArith Bool Lia.
From Verif Require Import Base Spec BitUtilModel BitUtilProof2 HwModel HwProof ClzExact.
Import ListNotations.
Local Open Scope N_scope.

Theorem C107_clz32 : forall x, x < 2 ^ 32 -> clz32 x = if x =? 0 then 32 else 63 - N.log2 x.
Proof. intros x H. destruct (N.eqb_spec x 0); [subst; reflexivity|]. now apply clz32_val. Qed.
Print Assumptions C107_clz32.
Theorem C107_clz64 : forall x, x < 2 ^ 64 -> clz64 x = if x =? 0 then 64 else 63 - N.log2 x.
Proof. exact clz64_total. Qed.
Print Assumptions C107_clz64.
(** the index of the word is not turned round: the words below the highest one are counted, not those above *)
Theorem C107_clz256 : forall x, words256 x ->
  clz256 x = if value256 x =? 0 then 256 else let h := N.log2 (value256 x) in 64 * (h / 64) + (63 - h mod 64).
Proof. exact clz256_total. Qed.
Print Assumptions C107_clz256.
Example C107_clz_ex : clz32 1 = 63 /\ clz32 0 = 32 /\ clz64 1 = 63 /\ clz256 [7; 0; 4; 0] = 189 /\ clz256 [1; 0; 0; 0] = 63 /\ clz256 [0; 0; 0; 0] = 256.
Proof. vm_compute. auto 10. Qed.

(** sel with BMI2 and any count of trailing zeros that is right and gives 64 for 0 *)
Theorem C107_sel_bmi2 : forall tz x i, (forall y, y < 2 ^ 64 -> y <> 0 -> lowest_one y (tz y)) -> tz 0 = 64 -> x < 2 ^ 64 -> i < 2 ^ 64 ->
  if (1 <=? i) && (i <=? N.of_nat (ones_below 64 x)) then
    exists p, (p < 64)%nat /\ sel_bmi2 tz x i = Ok (N.of_nat p + 1) /\ N.testbit x (N.of_nat p) = true /\ N.of_nat (ones_below p x) + 1 = i
  else sel_bmi2 tz x i = if (1 <=? i) && (i <=? 64) then Ok 65 else UB.
Proof. exact sel_bmi2_total. Qed.
Print Assumptions C107_sel_bmi2.
(** the three counts of trailing zeros are such *)
Theorem C107_trailing : forall tz, In tz [ctz64; ctz64_bmi; ctz_popcnt 64] -> (forall y, y < 2 ^ 64 -> y <> 0 -> lowest_one y (tz y)) /\ tz 0 = 64.
Proof.
  intros tz [<-|[<-|[<-|[]]]].
  - split; [|reflexivity]. intros y H1 H2. now apply ctz64_spec.
  - split; [|reflexivity]. intros y H1 H2. now apply (hw_tzcnt_spec 64).
  - split; [|reflexivity]. intros y H1 H2. now apply (ctz_popcnt_spec 64).
Qed.
Print Assumptions C107_trailing.
(** sel with POPCNT but without BMI2 *)
Theorem C107_sel_popcnt : forall x i,
  let h := N.shiftr x 32 in let c := N.of_nat (ones_below 32 x) in
  if i =? 0 then sel_hw x i = Ok 0
  else if i <=? c + N.of_nat (ones_below 32 h) then
    exists p, (p < 64)%nat /\ sel_hw x i = Ok (N.of_nat p + 1) /\ N.testbit x (N.of_nat p) = true /\ N.of_nat (ones_below p x) + 1 = i
  else sel_hw x i = if i - c - N.of_nat (ones_below 24 h) <=? 8 then Ok 64 else UB.
Proof. exact sel_hw_total. Qed.
Print Assumptions C107_sel_popcnt.
Example C107_sel_ex : sel_bmi2 ctz64_bmi 0xF0 4 = Ok 8 /\ sel_bmi2 ctz64_bmi 0xF0 5 = Ok 65 /\ sel_bmi2 ctz64_bmi 0xF0 64 = Ok 65 /\ sel_bmi2 ctz64_bmi 0xF0 65 = UB /\ sel_bmi2 ctz64_bmi 0xF0 0 = UB /\
  sel_hw 0xF0 4 = Ok 8 /\ sel_hw 0xF0 5 = Ok 64 /\ sel_hw 0xF0 12 = Ok 64 /\ sel_hw 0xF0 13 = UB /\ sel_hw 0xF0 0 = Ok 0.
Proof. vm_compute. auto 10. Qed.

(** bextr with BMI is defined everywhere: the lowest eight bits of start and length count *)
Theorem C107_bextr_bmi : forall x s len, x < 2 ^ 64 -> bextr_hw x s len = (x / 2 ^ (s mod 256)) mod 2 ^ (len mod 256).
Proof. exact bextr_hw_total. Qed.
Print Assumptions C107_bextr_bmi.
Example C107_bextr_ex : bextr_hw 0xABCD 260 264 = 0xBC /\ bextr_hw 0xABCD 100 8 = 0 /\ bextr_hw 0xABCD 0 200 = 0xABCD.
Proof. vm_compute. auto. Qed.
