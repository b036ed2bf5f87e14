(** The number a decimal stands for: value * 10^scale. *)
From Coq Require Import QArith.
From Verif Require Import Bytes FixedModel MetaModel MetaProofs.
Local Open Scope Z_scope.

Definition toQ (x : fp) : Q := (inject_Z (value x) * Qpower (10 # 1) (scale x))%Q.

(** An object of the type: the value fits the representation, the scale fits int32_t. *)
Definition decimal (r : rep) (x : fp) : Prop := inr r (value x) = true /\ inr I32 (scale x) = true.

(** The operand can be written at scale [s] within the representation: the power of ten and the
    product both fit. *)
Definition alignable (r : rep) (x : fp) (s : Z) : Prop :=
  s = scale x \/ (10 ^ (scale x - s) <= rmax r /\ inr r (value x * 10 ^ (scale x - s)) = true).

(** Both operands and the result fit when written at the smaller of the two scales. *)
Definition at_scale (x : fp) (s : Z) : Z := value x * 10 ^ (scale x - s).
Definition mscale (x y : fp) : Z := Z.min (scale x) (scale y).
Definition add_fits r x y := alignable r x (mscale x y) /\ alignable r y (mscale x y) /\
  inr r (at_scale x (mscale x y) + at_scale y (mscale x y)) = true.
Definition sub_fits r x y := alignable r x (mscale x y) /\ alignable r y (mscale x y) /\
  inr r (at_scale x (mscale x y) - at_scale y (mscale x y)) = true.

(** Plain decimal notation for value * 10^scale: sign, digits, and for a negative scale a point
    followed by exactly -scale digits. *)
Definition digits (s : list byte) : Prop := forallb is_digit s = true.
Definition notation (x : fp) (t : list byte) : Prop :=
  exists sign a b,
    digits a /\ a <> [] /\ digits b /\
    sign = (if value x <? 0 then str "-" else []) /\
    if scale x <? 0
    then t = sign ++ a ++ str "." ++ b /\ Z.of_nat (length b) = - scale x /\
         Z.of_N (digits_val (a ++ b) 0) = Z.abs (value x)
    else t = sign ++ a /\ b = [] /\ Z.of_N (digits_val a 0) = Z.abs (value x) * 10 ^ scale x.
