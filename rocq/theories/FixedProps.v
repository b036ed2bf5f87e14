(** Property C46: decimal arithmetic. *)
From Coq Require Import QArith.
From Verif Require Import Bytes Outcome FixedModel FixedSpec FixedProofs.
Local Open Scope Z_scope.

(** Multiplication: exact when the product of the stored integers fits, the overflow error otherwise. *)
Theorem C46_multiplication_exact_or_error :
  forall r x y, decimal r x -> decimal r y -> inr I32 (scale x + scale y) = true ->
  (inr r (value x * value y) = true -> exists z, fmul r x y = Ok z /\ decimal r z /\ (toQ z == toQ x * toQ y)%Q) /\
  (inr r (value x * value y) = false -> fmul r x y = Err Throw).
Proof. exact mul_spec. Qed.
Print Assumptions C46_multiplication_exact_or_error.

(** Division by a non-zero decimal: the quotient truncated towards zero, or the overflow error. *)
Theorem C46_division_truncates_or_error :
  forall r x y, decimal r x -> decimal r y -> inr I32 (scale x - scale y) = true -> value y <> 0 ->
  (inr r (Z.quot (value x) (value y)) = true ->
     exists z rem, fdiv r x y = Ok z /\ decimal r z /\ Z.abs rem < Z.abs (value y) /\ 0 <= value x * rem /\
       (toQ x == toQ z * toQ y + inject_Z rem * Qpower (10 # 1) (scale x))%Q) /\
  (inr r (Z.quot (value x) (value y)) = false -> fdiv r x y = Err Throw).
Proof. exact div_spec. Qed.
Print Assumptions C46_division_truncates_or_error.

(** Addition and subtraction are exact whenever the operands, written at the smaller scale, and the
    result fit.  Missing: in every other case the code overflows a signed integer (undefined) before
    it reaches its overflow test, so the promised error is not raised. *)
Theorem C46_addition_exact_partial :
  forall r x y, decimal r x -> decimal r y ->
  (add_fits r x y -> exists z, fadd r x y = Ok z /\ decimal r z /\ (toQ z == toQ x + toQ y)%Q) /\
  (~ add_fits r x y -> fadd r x y = Err UB).
Proof. exact add_spec. Qed.
Print Assumptions C46_addition_exact_partial.

Theorem C46_subtraction_exact_partial :
  forall r x y, decimal r x -> decimal r y ->
  (sub_fits r x y -> exists z, fsub r x y = Ok z /\ decimal r z /\ (toQ z == toQ x - toQ y)%Q) /\
  (~ sub_fits r x y -> fsub r x y = Err UB).
Proof. exact sub_spec. Qed.
Print Assumptions C46_subtraction_exact_partial.

(** Comparison is the comparison of the numbers whenever both can be written at the smaller scale. *)
Theorem C46_comparison_exact_partial :
  forall r x y, decimal r x -> decimal r y ->
  (alignable r x (mscale x y) /\ alignable r y (mscale x y) -> fcmp r x y = Ok (Qcompare (toQ x) (toQ y))) /\
  (~ (alignable r x (mscale x y) /\ alignable r y (mscale x y)) -> fcmp r x y = Err UB).
Proof. exact cmp_spec. Qed.
Print Assumptions C46_comparison_exact_partial.

(** The overflow tests themselves are exact on the whole range of every representation. *)
Theorem C46_overflow_tests_exact :
  forall r l h, inr r l = true -> inr r h = true ->
  addition_overflow r l h = negb (inr r (l + h)) /\
  subtraction_overflow r l h = negb (inr r (l - h)) /\
  multiplication_overflow r l h = negb (inr r (l * h)) /\
  (h <> 0 -> division_overflow r l h = negb (inr r (Z.quot l h))).
Proof.
  exact (fun r l h Hl Hh => conj (addition_test r l h Hl Hh) (conj (subtraction_test r l h Hl Hh)
           (conj (multiplication_test r l h Hl Hh) (division_test r l h Hl Hh)))).
Qed.
Print Assumptions C46_overflow_tests_exact.

(** An overflowing sum, and two ordinary numbers whose comparison is undefined. *)
Theorem C46_overflow_not_reported_refuted :
  exists x y z, decimal I32 x /\ decimal I32 y /\ decimal I32 z /\
    fadd I32 x y = Err UB /\ fcmp I32 x z = Err UB.
Proof.
  exists {| value := 2147483647; scale := 0 |}, {| value := 1; scale := 0 |}, {| value := 1; scale := -1 |}.
  repeat split; vm_compute; reflexivity.
Qed.
Print Assumptions C46_overflow_not_reported_refuted.

(** The text of a 32- or 64-bit decimal is its plain decimal notation. *)
Theorem C46_text_exact_partial :
  forall r x, decimal r x -> r <> I128 -> value x <> rmin r \/ 0 <= scale x -> 10 ^ (- scale x) <= rmax r ->
  exists t, to_text r x = Ok t /\ notation x t.
Proof. exact text_spec. Qed.
Print Assumptions C46_text_exact_partial.

(** Zero as a 128-bit decimal is written as the empty text, one half as ".5". *)
Theorem C46_text_128_refuted :
  to_text I128 {| value := 0; scale := 0 |} = Ok [] /\ to_text I128 {| value := 5; scale := -1 |} = Ok (str ".5").
Proof. split; vm_compute; reflexivity. Qed.
Print Assumptions C46_text_128_refuted.

Example C46_case :
  fadd I32 {| value := 12345; scale := -2 |} {| value := -7; scale := 1 |} = Ok {| value := 5345; scale := -2 |} /\
  fsub I64 {| value := 5; scale := 3 |} {| value := 1; scale := 0 |} = Ok {| value := 4999; scale := 0 |} /\
  fmul I32 {| value := 65536; scale := -2 |} {| value := 32768; scale := 0 |} = Err Throw /\
  fmul I32 {| value := 65535; scale := -2 |} {| value := 32767; scale := -3 |} = Ok {| value := 2147385345; scale := -5 |} /\
  fcmp I32 {| value := 120; scale := -2 |} {| value := 12; scale := -1 |} = Ok Eq /\
  to_text I32 {| value := -1203; scale := -3 |} = Ok (str "-1.203") /\
  to_text I32 {| value := 3; scale := -3 |} = Ok (str "0.003").
Proof. repeat split; vm_compute; reflexivity. Qed.
Example C46_guards : add_fits I32 {| value := 12345; scale := -2 |} {| value := -7; scale := 1 |}.
Proof.
  split; [left; reflexivity|split; [right|]; vm_compute; try split; try reflexivity; discriminate].
Qed.
