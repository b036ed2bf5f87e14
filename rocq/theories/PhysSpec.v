(** The order of index keys, by their meaning. *)
From Verif Require Import Bytes ByteOrd PhysModel.
From Coq Require Import ZArith QArith.
Local Open Scope Z_scope.

(** Integers that their type can hold. *)
Definition in_range (t : ity) (z : Z) : Prop :=
  if signed t then - 2 ^ (width t - 1) <= z < 2 ^ (width t - 1) else 0 <= z < 2 ^ width t.

(** The number a value stands for. *)
Inductive number := NegInf | Rat (q : Q) | PosInf.
Definition flt_number (f : flt) : option number :=
  match f with
  | Fin m e => Some (Rat (inject_Z m * (2 # 1) ^ e))
  | Inf true => Some NegInf
  | Inf false => Some PosInf
  | Nan => None
  end.

Definition number_lt (a b : number) : Prop :=
  match a, b with
  | NegInf, NegInf => False
  | NegInf, _ => True
  | _, NegInf => False
  | PosInf, _ => False
  | _, PosInf => True
  | Rat p, Rat q => (p < q)%Q
  end.

(** Booleans, then numbers by value, then strings byte by byte, then NULL. *)
Inductive meaning := MBool (b : bool) | MNumber (n : number) | MString (s : list byte) | MNull | MNone.
Definition means (v : pval) : meaning :=
  match v with
  | PBool b => MBool b
  | PInt _ z => MNumber (Rat (inject_Z z))
  | PFloat f | PDouble f => match flt_number f with Some n => MNumber n | None => MNone end
  | PStr s => MString s
  | PNull => MNull
  end.

Definition rank (m : meaning) : Z :=
  match m with MBool _ => 1 | MNumber _ | MNone => 2 | MString _ => 3 | MNull => 4 end.

Definition before (a b : meaning) : Prop :=
  match a, b with
  | MBool x, MBool y => x = false /\ y = true
  | MNumber x, MNumber y => number_lt x y
  | MString x, MString y => bcmp x y = Lt
  | _, _ => rank a < rank b
  end.

(** Sets of values without rounding: no floating point numbers at all; doubles with integers up to 2^53; all floats
    with integers up to 2^24.  NaN is in none of them. *)
Inductive regime := NoFloats | DoublesOnly | AllFloats.
Definition exact (r : regime) (v : pval) : Prop :=
  match v with
  | PInt t z =>
    in_range t z /\ match r with NoFloats => True | DoublesOnly => Z.abs z <= 2 ^ 53 | AllFloats => Z.abs z <= 2 ^ 24 end
  | PFloat f => r = AllFloats /\ f <> Nan
  | PDouble f => r <> NoFloats /\ f <> Nan
  | _ => True
  end.

(** Any integers, with doubles that are not NaN. *)
Definition no_floats32 (v : pval) : Prop :=
  match v with
  | PInt t z => in_range t z
  | PFloat _ => False
  | PDouble f => f <> Nan
  | _ => True
  end.

Record strict_weak_order (P : pval -> Prop) (lt eq : pval -> pval -> bool) : Prop := {
  swo_irrefl : forall a, P a -> lt a a = false;
  swo_trans : forall a b c, P a -> P b -> P c -> lt a b = true -> lt b c = true -> lt a c = true;
  swo_equiv : forall a b c, P a -> P b -> P c -> eq a b = true -> eq b c = true -> eq a c = true;
  swo_eq : forall a b, P a -> P b -> (eq a b = true <-> lt a b = false /\ lt b a = false) }.
