(** What a user expects of table values: numbers compare by value, aggregates are the mathematical ones. *)
From Verif Require Import Bytes Outcome LValModel.
From Coq Require Import ZArith.
Open Scope Z_scope.

(** Column types with at most 64 bits and booleans. *)
Definition basic (t : lty) : bool :=
  match t with TBool | TI8 | TI16 | TI32 | TI64 | TU8 | TU16 | TU32 | TU64 => true | _ => false end.
Definition signed (t : lty) : bool := match t with TI8 | TI16 | TI32 | TI64 => true | _ => false end.
Definition bits (t : lty) : Z :=
  match t with TBool => 1 | TI8 | TU8 => 8 | TI16 | TU16 => 16 | TI32 | TU32 => 32 | _ => 64 end.

(** A number that the type can hold. *)
Definition fits (t : lty) (z : Z) : Prop :=
  if signed t then - 2 ^ (bits t - 1) <= z < 2 ^ (bits t - 1) else 0 <= z < 2 ^ bits t.

(** Pairs of typed numbers that the code compares correctly: types of the same kind (signed, or unsigned and
    boolean), or a signed and a (non-boolean) unsigned one when the unsigned number is below half of the range of the
    wider of the two types. *)
Definition half (s u : lty) (zu : Z) : Prop := zu < 2 ^ (Z.max (bits s) (bits u) - 1).
Definition comparable (t1 : lty) (z1 : Z) (t2 : lty) (z2 : Z) : Prop :=
  match signed t1, signed t2 with
  | true, true | false, false => True
  | true, false => t2 <> TBool /\ half t1 t2 z2
  | false, true => t1 <> TBool /\ half t2 t1 z1
  end.

(** A well-formed column of a basic type: every value present is a number of that type. *)
Definition num_column (t : lty) (rows : list (option Z)) : column :=
  {| ctype := t; crows := map (option_map (VNum t)) rows |}.
Definition ok_rows (t : lty) (rows : list (option Z)) : Prop :=
  forall z, In (Some z) rows -> fits t z.

(** The sum of the values that are present. *)
Fixpoint total (rows : list (option Z)) : Z :=
  match rows with [] => 0 | Some z :: r => z + total r | None :: r => total r end.

(** No running total leaves the type's range. *)
Definition no_overflow (t : lty) (rows : list (option Z)) : Prop :=
  forall n, fits t (total (firstn n rows)).

(** The mathematical meaning of the binary operators (C++ division truncates). *)
Definition meaning (o : bop) (a b : Z) : option Z :=
  match o with
  | Add => Some (a + b)
  | Sub => Some (a - b)
  | Mul => Some (a * b)
  | Div => if b =? 0 then None else Some (Z.quot a b)
  | Mod => if b =? 0 then None else Some (Z.rem a b)
  end.

(** Types that C++ computes in themselves. *)
Definition wide (t : lty) : bool := match t with TI32 | TI64 | TU32 | TU64 => true | _ => false end.
(** The type of a result. *)
Definition result_type (t : lty) : lty := if wide t then t else TI32.
