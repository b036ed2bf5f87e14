(** Table values: [logical_value_t], their comparison, addition and the table aggregates.
    Modelled from components/types/types.hpp, components/types/logical_value.{hpp,cpp},
    components/vector/vector.cpp and components/physical_plan/table/operators/aggregate/. *)
From Verif Require Import Bytes Outcome ByteOrd.
From Coq Require Import ZArith.
Open Scope Z_scope.

(** [enum class logical_type] (types.hpp 75-124), without FLOAT, DOUBLE, DECIMAL, INTERVAL, BLOB, BIT, UUID and the
    nested types, which are not modelled.  [TOther] stands for a code that names none of the modelled types: the
    comparison can compute such a code. *)
Inductive lty :=
| TNA | TBool | TI8 | TI16 | TI32 | TI64 | TI128 | TSec | TMs | TUs | TNs | TU8 | TU16 | TU32 | TU64 | TU128 | TStr
| TOther.

Definition lty_eq_dec (a b : lty) : {a = b} + {a <> b}.
Proof. decide equality. Defined.
Definition lty_eqb (a b : lty) : bool := if lty_eq_dec a b then true else false.

(** The numeric codes of the enum (types.hpp 77-105); [TOther] is given the code INVALID. *)
Definition code (t : lty) : Z :=
  match t with
  | TNA => 0 | TBool => 10 | TI8 => 11 | TI16 => 12 | TI32 => 13 | TI64 => 14 | TI128 => 15
  | TSec => 18 | TMs => 19 | TUs => 20 | TNs => 21
  | TU8 => 27 | TU16 => 28 | TU32 => 29 | TU64 => 30 | TU128 => 31 | TStr => 35 | TOther => 255
  end.

(** [static_cast<logical_type>(code)]. *)
Definition of_code (c : Z) : lty :=
  match c with
  | 0 => TNA | 10 => TBool | 11 => TI8 | 12 => TI16 | 13 => TI32 | 14 => TI64 | 15 => TI128
  | 18 => TSec | 19 => TMs | 20 => TUs | 21 => TNs
  | 27 => TU8 | 28 => TU16 | 29 => TU32 | 30 => TU64 | 31 => TU128 | 35 => TStr | _ => TOther
  end.

(** [is_signed] (types.hpp 186-199). *)
Definition is_signed (t : lty) : bool :=
  match t with TI8 | TI16 | TI32 | TI64 | TI128 => true | _ => false end.

(** [is_unsigned] (types.hpp 201-213): BOOLEAN counts as unsigned. *)
Definition is_unsigned (t : lty) : bool :=
  match t with TBool | TU8 | TU16 | TU32 | TU64 | TU128 => true | _ => false end.

(** [is_numeric] (types.hpp 165-184). *)
Definition is_numeric (t : lty) : bool := is_signed t || is_unsigned t.

(** [is_duration] (types.hpp 215-225). *)
Definition is_duration (t : lty) : bool := match t with TSec | TMs | TUs | TNs => true | _ => false end.

(** [signage_difference] (types.hpp 289-290) = UTINYINT - TINYINT. *)
Definition SIGNAGE : Z := code TU8 - code TI8.

(** [static_cast<uint8_t>]. *)
Definition u8 (z : Z) : Z := z mod 256.

(** [promote_type] (types.hpp 282-353).  For durations the switch gives the common (finer) unit, which is the one with
    the larger code. *)
Definition promote_type (a b : lty) : lty :=
  if lty_eqb a b then a
  else if is_duration a && is_duration b then of_code (Z.max (code a) (code b))
  else if Bool.eqb (is_signed a) (is_signed b) || Bool.eqb (is_unsigned a) (is_unsigned b)
       then of_code (Z.max (code a) (code b))
  else if is_signed a then of_code (Z.max (code a) (u8 (code b - SIGNAGE)))
  else of_code (Z.max (u8 (code a - SIGNAGE)) (code b)).

(** [logical_value_t] (logical_value.hpp): a type and a variant.  Numbers, booleans (0/1) and durations (a count of
    the unit) are [VNum]; NULL constants are [VNull]. *)
Inductive lval := VNull | VNum (t : lty) (z : Z) | VStr (s : list byte).

Definition type_of (v : lval) : lty := match v with VNull => TNA | VNum t _ => t | VStr _ => TStr end.

(** Width in bits of the C++ type stored for a logical type. *)
Definition width (t : lty) : Z :=
  match t with
  | TBool => 1 | TI8 | TU8 => 8 | TI16 | TU16 => 16 | TI32 | TU32 => 32 | TI128 | TU128 => 128 | _ => 64
  end.

(** Signed storage: the signed integers and the durations (int64_t). *)
Definition stored_signed (t : lty) : bool := is_signed t || is_duration t.

Definition tmin (t : lty) : Z := if stored_signed t then - 2 ^ (width t - 1) else 0.
Definition tmax (t : lty) : Z := if stored_signed t then 2 ^ (width t - 1) - 1 else 2 ^ width t - 1.
Definition in_range (t : lty) (z : Z) : bool := (tmin t <=? z) && (z <=? tmax t).

(** [static_cast<T>] between integer types: modular; to bool: nonzero is 1. *)
Definition conv (t : lty) (z : Z) : Z :=
  match t with
  | TBool => if z =? 0 then 0 else 1
  | _ => if stored_signed t then (z + 2 ^ (width t - 1)) mod 2 ^ width t - 2 ^ (width t - 1) else z mod 2 ^ width t
  end.

(** How many of the unit [b] one unit [a] is, for [a] not finer than [b]. *)
Definition per_second (t : lty) : Z :=
  match t with TMs => 1000 | TUs => 1000000 | TNs => 1000000000 | _ => 1 end.

(** [cast_as] (logical_value.cpp 335-428).  [None] is an [assert(false)].  Durations: [value<unit>]
    (logical_value.hpp 212-282), a multiplication or a truncating division; its overflow is undefined behaviour and is
    not distinguished here since no comparison uses the result. *)
Definition cast_as (v : lval) (t : lty) : option lval :=
  if lty_eqb (type_of v) t then Some v
  else match v with
       | VNum s z =>
         if is_numeric t && is_numeric s then Some (VNum t (conv t z))
         else if is_duration t && is_duration s then Some (VNum t (Z.quot (z * per_second t) (per_second s)))
         else None
       | _ => None
       end.

(** The same-type case of [operator<] (logical_value.cpp 504-538): no case for HUGEINT, UHUGEINT, the timestamps and
    NA. [None] is the [assert(false)] of the default case. *)
Definition lt_same (v w : lval) : option bool :=
  match v, w with
  | VNum t a, VNum _ b =>
    match t with
    | TBool | TI8 | TI16 | TI32 | TI64 | TU8 | TU16 | TU32 | TU64 => Some (a <? b)
    | _ => None
    end
  | VStr a, VStr b => Some (bltb a b)
  | _, _ => None
  end.

(** The same-type case of [operator==] (logical_value.cpp 451-489). *)
Definition eq_same (v w : lval) : option bool :=
  match v, w with
  | VNum t a, VNum _ b =>
    match t with
    | TBool | TI8 | TI16 | TI32 | TI64 | TU8 | TU16 | TU32 | TU64 => Some (a =? b)
    | _ => None
    end
  | VStr a, VStr b => Some (beqb a b)
  | _, _ => None
  end.

(** The common part of [operator<] and [operator==] (432-450, 495-503): cast both sides to the promoted type.  When
    the promoted type is not one of the enum, [cast_as] fails its assertion; without assertions it returns NULL and
    the comparison of two NULLs fails the next one. *)
Definition compare_with (same : lval -> lval -> option bool) (v w : lval) : option bool :=
  if lty_eqb (type_of v) (type_of w) then same v w
  else if is_numeric (type_of v) && is_numeric (type_of w) || is_duration (type_of v) && is_duration (type_of w)
       then match cast_as v (promote_type (type_of v) (type_of w)),
                  cast_as w (promote_type (type_of v) (type_of w)) with
            | Some v', Some w' => same v' w'
            | _, _ => None
            end
       else None.

(** [operator<] and [operator==] with assertions on: [None] when one fails. *)
Definition vlt (v w : lval) : option bool := compare_with lt_same v w.
Definition veq (v w : lval) : option bool := compare_with eq_same v w.

(** The same in a release build: every failed assertion is followed by [return false]. *)
Definition holds (o : option bool) : bool := match o with Some b => b | None => false end.
Definition vltb (v w : lval) : bool := holds (vlt v w).
Definition veqb (v w : lval) : bool := holds (veq v w).
(** [operator>], [operator<=], [operator>=], [operator!=] (493, 537-542). *)
Definition vgtb (v w : lval) : bool := vltb w v.
Definition vleb (v w : lval) : bool := negb (vgtb v w).
Definition vgeb (v w : lval) : bool := negb (vltb v w).
Definition vneb (v w : lval) : bool := negb (veqb v w).

(** [compare] (logical_value.cpp 544-552). *)
Definition vcompare (v w : lval) : comparison := if veqb v w then Eq else if vltb v w then Lt else Gt.

(** The C++ type of [a + b] for two operands of the type [t]: the integer promotions turn everything narrower than
    int into int. *)
Definition arith_type (t : lty) : lty :=
  match t with TBool | TI8 | TI16 | TU8 | TU16 => TI32 | _ => t end.

(** Result of an operator whose mathematical result is [r], computed in the type [t]: signed overflow is undefined
    behaviour, unsigned results wrap. *)
Definition arith (t : lty) (r : Z) : res lval :=
  let t' := arith_type t in
  if stored_signed t' then if in_range t' r then Ok (VNum t' r) else Err UB
  else Ok (VNum t' (conv t' r)).

(** [(value.*getter)()] for [value<T>]: [std::get] on the variant throws when it holds another type
    (logical_value.hpp 165-203). *)
Definition vget (t : lty) (v : lval) : res Z :=
  match v with VNum s z => if lty_eqb s t then Ok z else Err Throw | _ => Err Throw end.

(** The binary operators that have an entry for the integers. *)
Inductive bop := Add | Sub | Mul | Div | Mod.

(** The operation on two numbers; division by zero, and a quotient that does not fit, are undefined behaviour. *)
Definition bop_apply (o : bop) (t : lty) (a b : Z) : res lval :=
  match o with
  | Add => arith t (a + b)
  | Sub => arith t (a - b)
  | Mul => arith t (a * b)
  | Div => if b =? 0 then Err UB else arith t (Z.quot a b)
  | Mod => if b =? 0 then Err UB
           else if stored_signed (arith_type t) && negb (in_range (arith_type t) (Z.quot a b)) then Err UB
           else arith t (Z.rem a b)
  end.

(** [op<OP>(value1, value2, getter)] (logical_value.cpp 709-720): a NULL operand is replaced by [T()], zero. *)
Definition vop (o : bop) (t : lty) (v w : lval) : res lval :=
  match v, w with
  | VNull, _ => do b <- vget t w; bop_apply o t 0 b
  | _, VNull => do a <- vget t v; bop_apply o t a 0
  | _, _ => do a <- vget t v; do b <- vget t w; bop_apply o t a b
  end.

(** [sum], [subtract], [mult], [divide], [modulus] (logical_value.cpp 722-932), for the integer types; HUGEINT and
    UHUGEINT are commented out in the code and throw.  Strings and durations are not modelled here: the model returns
    [Err Throw] for them and no theorem is about them. *)
Definition binary (o : bop) (v w : lval) : res lval :=
  match v, w with
  | VNull, VNull => Ok v
  | _, _ =>
    let t := match v with VNull => type_of w | _ => type_of v end in
    match t with
    | TBool | TI8 | TI16 | TI32 | TI64 | TU8 | TU16 | TU32 | TU64 => vop o t v w
    | _ => Err Throw
    end
  end.

Definition vsum (v w : lval) : res lval := binary Add v w.

(** The constructor from a type (logical_value.cpp 8-65): the zero of the type. *)
Definition vzero (t : lty) : lval :=
  match t with TNA | TOther => VNull | TStr => VStr [] | _ => VNum t 0 end.

(** A column of a chunk: its type and its rows; [None] is a row whose validity bit is off. *)
Record column := { ctype : lty; crows : list (option lval) }.

(** [vector_t::value] (vector.cpp 550-582, 772-781) on a flat vector: a NULL row gives [logical_value_t(type)], which
    is the zero of the type. *)
Definition cell (c : column) (o : option lval) : lval :=
  match o with Some v => v | None => vzero (ctype c) end.

(** [operator_sum_t::aggregate_impl] (operator_sum.cpp 12-33). *)
Definition agg_sum (c : column) : res lval :=
  fold_left (fun acc o => do a <- acc; vsum a (cell c o)) (crows c) (Ok (vzero (ctype c))).

(** [operator_min_t::aggregate_impl] (operator_min.cpp 12-39), release build. *)
Definition agg_min (c : column) : lval :=
  match map (cell c) (crows c) with
  | [] => VNull
  | v :: vs => fold_left (fun m v => if vgtb m v then v else m) vs v
  end.

(** [operator_max_t::aggregate_impl] (operator_max.cpp 12-39), release build. *)
Definition agg_max (c : column) : lval :=
  match map (cell c) (crows c) with
  | [] => VNull
  | v :: vs => fold_left (fun m v => if vltb m v then v else m) vs v
  end.

(** [operator_count_t::aggregate_impl] (operator_count.cpp 10-19): the number of rows of the chunk. *)
Definition agg_count (c : column) : lval := VNum TU64 (conv TU64 (Z.of_nat (length (crows c)))).
