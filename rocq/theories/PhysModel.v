(** Index keys on disk and in the B+tree: comparison of [physical_value].
    Modelled from components/types/physical_value.{hpp,cpp}. *)
From Verif Require Import Bytes ByteOrd.
From Coq Require Import ZArith.
Local Open Scope Z_scope.

(** The integer members of [physical_type] (types.hpp 25-57). *)
Inductive ity := U8 | I8 | U16 | I16 | U32 | I32 | U64 | I64.

(** [std::is_signed_v] and the width. *)
Definition signed (t : ity) : bool := match t with I8 | I16 | I32 | I64 => true | _ => false end.
Definition width (t : ity) : Z :=
  match t with U8 | I8 => 8 | U16 | I16 => 16 | U32 | I32 => 32 | U64 | I64 => 64 end.

(** A floating point number: m * 2^e, an infinity, or NaN.  Both zeros are [Fin 0 e]. *)
Inductive flt := Fin (m e : Z) | Inf (neg : bool) | Nan.

(** [physical_value] (physical_value.hpp 19-116): the type with the data.  A string is the bytes it points to (the
    size is a [uint32_t]; longer strings are not modelled).  The 128-bit, list, struct and union types are not
    supported by the class. *)
Inductive pval :=
| PBool (b : bool)
| PInt (t : ity) (z : Z)
| PFloat (f : flt)
| PDouble (f : flt)
| PStr (s : list byte)
| PNull.

(** IEEE [<]: false with a NaN. *)
Definition flt_lt (a b : flt) : bool :=
  match a, b with
  | Nan, _ | _, Nan => false
  | Inf true, Inf true => false
  | Inf true, _ => true
  | _, Inf true => false
  | Inf false, _ => false
  | _, Inf false => true
  | Fin m1 e1, Fin m2 e2 => let k := Z.min e1 e2 in m1 * 2 ^ (e1 - k) <? m2 * 2 ^ (e2 - k)
  end.

(** Conversion of an integer to a floating point type with [p] bits of precision: round to nearest, ties to even.
    A 64-bit integer does not overflow either format. *)
Definition round_pos (p n : Z) : Z :=
  if n <? 2 ^ p then n
  else
    let k := Z.log2 n + 1 - p in
    let q := n / 2 ^ k in
    let r := n mod 2 ^ k in
    let q' := if (2 ^ k <? 2 * r) || ((2 * r =? 2 ^ k) && Z.odd q) then q + 1 else q in
    q' * 2 ^ k.
Definition round (p n : Z) : Z := if n <? 0 then - round_pos p (- n) else round_pos p n.
Definition of_int (p n : Z) : flt := Fin (round p n) 0.

(** [std::make_unsigned_t<T>(t)]. *)
Definition make_unsigned (t : ity) (z : Z) : Z := z mod 2 ^ width t.

(** [cmp_less] for two integers (physical_value.cpp 5-20).  After [make_unsigned] both sides are not negative, and the
    usual conversions of C++ preserve such values. *)
Definition int_less (t1 : ity) (z1 : Z) (t2 : ity) (z2 : Z) : bool :=
  if Bool.eqb (signed t1) (signed t2) then z1 <? z2
  else if signed t1 then (z1 <? 0) || (make_unsigned t1 z1 <? z2)
  else (0 <=? z2) && (z1 <? make_unsigned t2 z2).

(** Order of the types where values are not comparable (physical_value.cpp 108-110, types.hpp 25-41). *)
Definition type_code (v : pval) : Z :=
  match v with
  | PBool _ => 1
  | PInt U8 _ => 2 | PInt I8 _ => 3 | PInt U16 _ => 4 | PInt I16 _ => 5
  | PInt U32 _ => 6 | PInt I32 _ => 7 | PInt U64 _ => 8 | PInt I64 _ => 9
  | PFloat _ => 13 | PDouble _ => 14 | PStr _ => 15
  | PNull => 127
  end.

(** [operator<] (physical_value.cpp 63-183). *)
Definition less (a b : pval) : bool :=
  match a, b with
  (* nulls (73-81) *)
  | PNull, _ => false
  | _, PNull => true
  (* booleans (84-92) *)
  | PBool x, PBool y => negb x && y
  | PBool _, _ => true
  | _, PBool _ => false
  (* strings (101-104) *)
  | PStr x, PStr y => bltb x y
  (* other types (108-110) *)
  | PStr _, _ | _, PStr _ => type_code a <? type_code b
  (* numbers (116-183) *)
  | PInt t1 z1, PInt t2 z2 => int_less t1 z1 t2 z2
  | PInt _ z, PFloat f => flt_lt (of_int 24 z) f
  | PInt _ z, PDouble f => flt_lt (of_int 53 z) f
  | PFloat f, PInt _ z => flt_lt f (of_int 24 z)
  | PDouble f, PInt _ z => flt_lt f (of_int 53 z)
  | PFloat f, PFloat g | PFloat f, PDouble g | PDouble f, PFloat g | PDouble f, PDouble g => flt_lt f g
  end.

(** The other operators (185-195). *)
Definition greater (a b : pval) : bool := less b a.
Definition equal (a b : pval) : bool := negb (less a b) && negb (greater a b).
Definition not_equal (a b : pval) : bool := negb (equal a b).
Definition less_equal (a b : pval) : bool := negb (greater a b).
Definition greater_equal (a b : pval) : bool := negb (less a b).
