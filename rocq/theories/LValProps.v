(** Table values: comparison (C57), aggregates (C58) and arithmetic (C59). *)
From Verif Require Import Bytes Outcome ByteOrd LValModel LValSpec LValProofs.
From Coq Require Import ZArith Lia.
Open Scope Z_scope.

(** C57: numbers compare by their values, whatever their integer types.  Proved for every pair of integer types up to
    64 bits (and booleans) under [comparable]; missing: a boolean against a signed number, and an unsigned number in
    the upper half of the wider range against a signed one (refuted below); floating point is not modelled. *)
Theorem C57_compare_partial : forall t1 z1 t2 z2,
  basic t1 = true -> basic t2 = true -> fits t1 z1 -> fits t2 z2 -> comparable t1 z1 t2 z2 ->
  veqb (VNum t1 z1) (VNum t2 z2) = (z1 =? z2) /\ vneb (VNum t1 z1) (VNum t2 z2) = negb (z1 =? z2) /\
  vltb (VNum t1 z1) (VNum t2 z2) = (z1 <? z2) /\ vgtb (VNum t1 z1) (VNum t2 z2) = (z2 <? z1) /\
  vleb (VNum t1 z1) (VNum t2 z2) = (z1 <=? z2) /\ vgeb (VNum t1 z1) (VNum t2 z2) = (z2 <=? z1) /\
  vcompare (VNum t1 z1) (VNum t2 z2) = (z1 ?= z2).
Proof. exact compare_num. Qed.
Print Assumptions C57_compare_partial.

Example C57_compare_example :
  basic TI8 = true /\ basic TU32 = true /\ fits TI8 (-5) /\ fits TU32 2147483647 /\ comparable TI8 (-5) TU32 2147483647 /\
  vltb (VNum TI8 (-5)) (VNum TU32 2147483647) = true.
Proof.
  repeat split; try (vm_compute; congruence); try reflexivity.
Qed.

(** No assertion is reached in these comparisons either. *)
Theorem C57_no_assert : forall t1 z1 t2 z2,
  basic t1 = true -> basic t2 = true -> fits t1 z1 -> fits t2 z2 -> comparable t1 z1 t2 z2 ->
  vlt (VNum t1 z1) (VNum t2 z2) <> None /\ veq (VNum t1 z1) (VNum t2 z2) <> None.
Proof.
  intros t1 z1 t2 z2 B1 B2 F1 F2 C.
  rewrite (lt_num _ _ _ _ B1 B2 F1 F2 C), (eq_num _ _ _ _ B1 B2 F1 F2 C). split; discriminate.
Qed.
Print Assumptions C57_no_assert.

(** Strings compare byte by byte. *)
Theorem C57_strings : forall a b,
  veqb (VStr a) (VStr b) = beqb a b /\ vltb (VStr a) (VStr b) = bltb a b /\
  vcompare (VStr a) (VStr b) = bcmp a b.
Proof.
  intros a b. split; [reflexivity|]. split; [reflexivity|].
  unfold vcompare. change (veqb (VStr a) (VStr b)) with (beqb a b). change (vltb (VStr a) (VStr b)) with (bltb a b).
  unfold beqb, bltb. destruct (bcmp a b); reflexivity.
Qed.
Print Assumptions C57_strings.

(** Finding: every unsigned number in the upper half of the wider type's range is ordered before every nonnegative
    signed number. *)
Theorem C57_mixed_refuted : forall u zu s zs,
  basic u = true -> signed u = false -> u <> TBool -> basic s = true -> signed s = true ->
  fits u zu -> fits s zs -> 0 <= zs -> ~ half s u zu ->
  vltb (VNum u zu) (VNum s zs) = true /\ vltb (VNum s zs) (VNum u zu) = false.
Proof. exact large_unsigned. Qed.
Print Assumptions C57_mixed_refuted.

Example C57_mixed_example : vltb (VNum TU8 200) (VNum TI8 1) = true /\ veqb (VNum TU8 200) (VNum TI8 (-56)) = true /\
  vltb (VNum TU64 9223372036854775808) (VNum TI8 0) = true.
Proof. vm_compute. repeat split. Qed.

(** Finding: the order has cycles. *)
Theorem C57_cycle_refuted : exists a b c, vltb a b = true /\ vltb b c = true /\ vltb c a = true.
Proof. exists (VNum TU8 200), (VNum TI8 1), (VNum TI16 100). vm_compute. repeat split. Qed.
Print Assumptions C57_cycle_refuted.

(** Finding: a boolean and a signed number cannot be compared: the promotion computes a type code that does not exist,
    so an assertion fails, and without assertions neither is equal to, less than or greater than the other. *)
Theorem C57_bool_refuted : forall b s z, basic s = true -> signed s = true ->
  vlt (VNum TBool b) (VNum s z) = None /\ vlt (VNum s z) (VNum TBool b) = None /\
  veq (VNum TBool b) (VNum s z) = None /\ veq (VNum s z) (VNum TBool b) = None.
Proof.
  intros b s z B S. destruct (bool_signed lt_same b s z B S), (bool_signed eq_same b s z B S). auto.
Qed.
Print Assumptions C57_bool_refuted.

(** Finding: 128-bit numbers and timestamps are not even equal to themselves. *)
Theorem C57_huge_refuted : forall t a b,
  t = TI128 \/ t = TU128 \/ t = TSec \/ t = TMs \/ t = TUs \/ t = TNs ->
  vlt (VNum t a) (VNum t b) = None /\ veq (VNum t a) (VNum t b) = None.
Proof. exact huge_same. Qed.
Print Assumptions C57_huge_refuted.

Theorem C57_timestamps_refuted : forall t1 t2 a b, is_duration t1 = true -> is_duration t2 = true ->
  vlt (VNum t1 a) (VNum t2 b) = None /\ veq (VNum t1 a) (VNum t2 b) = None.
Proof. exact duration_mixed. Qed.
Print Assumptions C57_timestamps_refuted.

(** Finding: without assertions a string is at once "at most" and "at least" every number. *)
Theorem C57_string_number_refuted : forall s t z, basic t = true ->
  vleb (VStr s) (VNum t z) = true /\ vgeb (VStr s) (VNum t z) = true /\ veqb (VStr s) (VNum t z) = false.
Proof.
  intros s t z B. destruct (str_num s t z B) as (L & G & E & _).
  unfold vleb, vgeb, vgtb, vltb, veqb. rewrite L, G, E. repeat split.
Qed.
Print Assumptions C57_string_number_refuted.

(** C58: the sum of a column is the sum of its values.  Proved for 32- and 64-bit columns when no running total
    overflows; missing: narrower columns (refuted), overflow (undefined behaviour), floating point. *)
Theorem C58_sum_partial : forall t rows, wide t = true -> no_overflow t rows ->
  agg_sum (num_column t rows) = Ok (VNum t (total rows)).
Proof. exact sum_exact. Qed.
Print Assumptions C58_sum_partial.

Example C58_sum_example :
  no_overflow TI32 [Some 2147483647; None; Some (-5)] /\
  agg_sum (num_column TI32 [Some 2147483647; None; Some (-5)]) = Ok (VNum TI32 2147483642).
Proof.
  split; [|vm_compute; reflexivity].
  intros [|[|[|[|n]]]]; unfold fits; cbn [signed bits firstn total]; change (2 ^ (32 - 1)) with 2147483648; try lia.
Qed.

(** Unsigned totals wrap silently. *)
Theorem C58_sum_unsigned : forall t rows, t = TU32 \/ t = TU64 ->
  agg_sum (num_column t rows) = Ok (VNum t (total rows mod 2 ^ bits t)).
Proof. exact sum_unsigned. Qed.
Print Assumptions C58_sum_unsigned.

(** Finding: summing a column of booleans or of 8- or 16-bit integers throws whenever there are two rows or more. *)
Theorem C58_narrow_sum_refuted : forall t r0 r1 rows, basic t = true -> wide t = false ->
  ok_rows t (r0 :: r1 :: rows) -> agg_sum (num_column t (r0 :: r1 :: rows)) = Err Throw.
Proof. exact sum_narrow. Qed.
Print Assumptions C58_narrow_sum_refuted.

(** Finding: a signed total that does not fit is undefined behaviour. *)
Theorem C58_overflow_refuted : exists rows, ok_rows TI64 rows /\ agg_sum (num_column TI64 rows) = Err UB.
Proof.
  exists [Some 9223372036854775807; Some 1]. split; [|vm_compute; reflexivity].
  intros z [H|[H|[]]]; injection H as <-; unfold fits; cbn [signed bits];
    change (2 ^ (64 - 1)) with 9223372036854775808; lia.
Qed.
Print Assumptions C58_overflow_refuted.

(** The least and the greatest value of a non-empty column without NULLs. *)
Theorem C58_min_partial : forall t z rows, basic t = true ->
  exists m, agg_min (num_column t (map Some (z :: rows))) = VNum t m /\ In m (z :: rows) /\
            forall x, In x (z :: rows) -> m <= x.
Proof. exact min_num. Qed.
Print Assumptions C58_min_partial.

Theorem C58_max_partial : forall t z rows, basic t = true ->
  exists m, agg_max (num_column t (map Some (z :: rows))) = VNum t m /\ In m (z :: rows) /\
            forall x, In x (z :: rows) -> x <= m.
Proof. exact max_num. Qed.
Print Assumptions C58_max_partial.

(** Finding: a NULL counts as zero, so the least of positive values and a NULL is reported as 0. *)
Theorem C58_min_null_refuted : forall t rows, basic t = true -> In None rows ->
  (forall z, In (Some z) rows -> 0 < z) -> agg_min (num_column t rows) = VNum t 0.
Proof. exact min_null_zero. Qed.
Print Assumptions C58_min_null_refuted.

Example C58_min_null_example : agg_min (num_column TI32 [Some 7; None; Some 3]) = VNum TI32 0 /\
  agg_max (num_column TI32 [Some (-7); None; Some (-3)]) = VNum TI32 0.
Proof. vm_compute. repeat split. Qed.

(** Counting counts the rows. *)
Theorem C58_count : forall c, Z.of_nat (length (crows c)) < 2 ^ 64 ->
  agg_count c = VNum TU64 (Z.of_nat (length (crows c))).
Proof.
  intros c H. unfold agg_count. rewrite conv_fits; [reflexivity|reflexivity|].
  unfold fits. cbn [signed bits]. lia.
Qed.
Print Assumptions C58_count.

(** C59: arithmetic on two values of one integer type gives the mathematical result, when it fits the type C++ computes
    in.  Missing: mixed types (throw), results that do not fit, NULL operands. *)
Theorem C59_exact_partial : forall o t a b r,
  basic t = true -> fits t a -> fits t b -> meaning o a b = Some r -> fits (result_type t) r ->
  ~ (o = Mod /\ signed t = true /\ wide t = true /\ a = - 2 ^ (bits t - 1) /\ b = -1) ->
  binary o (VNum t a) (VNum t b) = Ok (VNum (result_type t) r).
Proof. exact binary_exact. Qed.
Print Assumptions C59_exact_partial.

Example C59_example : binary Add (VNum TU8 200) (VNum TU8 100) = Ok (VNum TI32 300) /\
  binary Div (VNum TI64 (-7)) (VNum TI64 2) = Ok (VNum TI64 (-3)) /\
  binary Mod (VNum TI64 (-7)) (VNum TI64 2) = Ok (VNum TI64 (-1)).
Proof. vm_compute. repeat split. Qed.

(** Finding: dividing by zero, and dividing by NULL, is undefined behaviour for every integer type. *)
Theorem C59_divide_refuted : forall o t a, basic t = true -> o = Div \/ o = Mod ->
  binary o (VNum t a) (VNum t 0) = Err UB /\ binary o (VNum t a) VNull = Err UB.
Proof. exact binary_zero. Qed.
Print Assumptions C59_divide_refuted.

(** Finding: operands of different integer types throw. *)
Theorem C59_mixed_refuted : forall o t1 a t2 b, basic t1 = true -> basic t2 = true -> t1 <> t2 ->
  binary o (VNum t1 a) (VNum t2 b) = Err Throw.
Proof. exact binary_mixed. Qed.
Print Assumptions C59_mixed_refuted.

(** Finding: NULL behaves as zero on either side; adding NULL to a number gives the number instead of NULL. *)
Theorem C59_null_refuted : forall o t a, basic t = true ->
  binary o VNull (VNum t a) = binary o (VNum t 0) (VNum t a) /\ binary o (VNum t a) VNull = binary o (VNum t a) (VNum t 0) /\
  (wide t = true -> fits t a -> binary Add (VNum t a) VNull = Ok (VNum t a)).
Proof. exact binary_null. Qed.
Print Assumptions C59_null_refuted.

Example C59_null_example : binary Sub VNull (VNum TI64 5) = Ok (VNum TI64 (-5)) /\ binary Sub (VNum TI64 5) VNull = Ok (VNum TI64 5).
Proof. vm_compute. split; reflexivity. Qed.
