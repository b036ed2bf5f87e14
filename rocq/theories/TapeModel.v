(** Model of scalars in a document: components/document/impl/tape_builder.*, tape_writer.*, tape_ref.*,
    element.*.  A document holds a list of 64-bit words (the tape) and a byte buffer for strings; an
    element is an index into the tape.  Numbers are little-endian, as on the platforms the project is
    built for.  Floating point values are their bit patterns. *)
From Verif Require Import Bytes Outcome.
Local Open Scope N_scope.

Record doc := { tape : list N; sbuf : list byte }.

(** types.hpp:25-72, the integer types that have a getter *)
Inductive ik := U8 | I8 | U16 | I16 | U32 | I32 | U64 | I64 | I128.
Definition code (k : ik) : N :=
  match k with U8 => 2 | I8 => 3 | U16 => 4 | I16 => 5 | U32 => 6 | I32 => 7 | U64 => 8 | I64 => 9 | I128 => 11 end.
Definition T_BOOL := 1. Definition T_FLOAT := 13. Definition T_DOUBLE := 14. Definition T_STRING := 15. Definition T_NA := 127.

Definition bits (k : ik) : N :=
  match k with U8 | I8 => 8 | U16 | I16 => 16 | U32 | I32 => 32 | U64 | I64 => 64 | I128 => 128 end.
Definition signed (k : ik) : bool := match k with I8 | I16 | I32 | I64 | I128 => true | _ => false end.
Definition imin (k : ik) : Z := if signed k then - 2 ^ (Z.of_N (bits k) - 1) else 0.
Definition imax (k : ik) : Z := if signed k then 2 ^ (Z.of_N (bits k) - 1) - 1 else 2 ^ Z.of_N (bits k) - 1.
Definition fits (k : ik) (z : Z) : bool := ((imin k <=? z) && (z <=? imax k))%Z.

(** two's complement: the pattern of a number and back; [static_cast] to [k] of an integer *)
Definition pattern (k : ik) (z : Z) : N := Z.to_N (z mod 2 ^ Z.of_N (bits k))%Z.
Definition of_pattern (k : ik) (n : N) : Z :=
  let z := Z.of_N (n mod 2 ^ bits k) in
  if signed k && (imax k <? z)%Z then (z - 2 ^ Z.of_N (bits k))%Z else z.
Definition cast (k : ik) (z : Z) : Z := of_pattern k (pattern k z).

Inductive scalar :=
| SNull | SBool (b : bool) | SInt (k : ik) (z : Z) | SFloat (n : N) | SDouble (n : N) | SString (s : list byte).

Definition two56 := 2 ^ 56.
Definition two64 := 2 ^ 64.
(** tape_builder.cpp:24-26 [append] *)
Definition tagged (val t : N) : N := N.lor val ((t * two56) mod two64).

(** tape_builder.hpp:51-61, 82-85: [uint64_t tape_data; memcpy(&tape_data, &value, n);] -- the bytes not
    copied stay as they were in the uninitialised variable, here [junk] *)
Definition memcpy_low (junk : N) (nbits val : N) : N := val + (junk / 2 ^ nbits) * 2 ^ nbits.

(** tape_writer.cpp:22-32 [append_string]: length as uint32, little-endian, bytes, NUL *)
Definition le4 (n : N) : list byte := rev (be 4 n).
Definition unle (l : list byte) : N := unbe (rev l).
Definition string_bytes (s : list byte) : list byte :=
  let n := N.of_nat (length s) mod 2 ^ 32 in le4 n ++ firstn (N.to_nat n) s ++ [byte_of_N 0].

(** tape_builder.hpp:40-94 [build] (38-94 in the order of the branches) *)
Definition build (junk : N) (d : doc) (v : scalar) : doc :=
  let put ws := {| tape := tape d ++ ws; sbuf := sbuf d |} in
  match v with
  | SNull => put [tagged 0 T_NA]
  | SBool b => put [tagged (if b then 1 else 0) T_BOOL]
  | SInt k z =>
    match k with
    | I8 | I16 | I32 => put [tagged (memcpy_low junk (bits k) (pattern k z)) (code k)]
    | I64 => put [tagged 0 (code I64); pattern I64 z]
    | U8 | U16 | U32 => put [tagged (pattern k z) (code k)]
    | U64 => put [tagged (pattern U64 z) (code U64); pattern U64 z]
    | I128 => put [tagged 0 (code I128); pattern I128 z mod two64; pattern I128 z / two64]
    end
  | SFloat n => put [tagged (memcpy_low junk 32 n) T_FLOAT]
  | SDouble n => put [tagged 0 T_DOUBLE; n]
  | SString s => {| tape := tape d ++ [tagged (N.of_nat (length (sbuf d))) T_STRING]; sbuf := sbuf d ++ string_bytes s |}
  end.

(** document.cpp (impl) [next_element]: the element of the value built next *)
Definition next_element (d : doc) : nat := length (tape d).

(** reading a word of the tape; past the end is undefined *)
Definition word (d : doc) (i : nat) : res N := match nth_error (tape d) i with Some w => Ok w | None => Err UB end.
(** tape_ref.cpp:14-17 *)
Definition tape_type (d : doc) (i : nat) : res N := do w <- word d i; Ok (w / two56).
Definition tape_value (d : doc) (i : nat) : res N := do w <- word d i; Ok (w mod two56).

(** tape_ref.hpp:38-55 [next_tape_value] for an integer type *)
Definition next_int (k : ik) (d : doc) (i : nat) : res Z :=
  if bits k <? 64 then do w <- word d i; Ok (of_pattern k w)
  else if bits k =? 64 then do w <- word d (S i); Ok (of_pattern k w)
  else do lo <- word d (S i); do hi <- word d (S (S i)); Ok (of_pattern k (lo + hi * two64)).

Inductive result (A : Type) := Val (a : A) | INCORRECT_TYPE | NUMBER_OUT_OF_RANGE.
Arguments Val {A} a. Arguments INCORRECT_TYPE {A}. Arguments NUMBER_OUT_OF_RANGE {A}.

(** element.cpp:8-73 [cast_from]: from signed to signed both bounds are tested, from signed to unsigned
    only the sign, from unsigned only the upper bound *)
Definition cast_from (from to : ik) (d : doc) (i : nat) : res (result Z) :=
  do r <- next_int from d i;
  if signed from then
    if signed to then
      if ((imax to <? r) || (r <? imin to))%Z then Ok NUMBER_OUT_OF_RANGE else Ok (Val (cast to r))
    else if (r <? 0)%Z then Ok NUMBER_OUT_OF_RANGE else Ok (Val (cast to r))
  else if (imax to <? r)%Z then Ok NUMBER_OUT_OF_RANGE else Ok (Val (cast to r)).
(** [To(tape_.next_tape_value<From>())] *)
Definition conv (from to : ik) (d : doc) (i : nat) : res (result Z) :=
  do r <- next_int from d i; Ok (Val (cast to r)).

(** the integer type with a given code *)
Definition kind_of (t : N) : option ik :=
  match t with 2 => Some U8 | 3 => Some I8 | 4 => Some U16 | 5 => Some I16 | 6 => Some U32 | 7 => Some I32
             | 8 => Some U64 | 9 => Some I64 | 11 => Some I128 | _ => None end.

(** Which integer getters convert without a test, element.cpp: get_uint8 125-165, get_uint16 167-207,
    get_uint32 209-249, get_uint64 251-291, get_int8 293-333, get_int16 335-375, get_int32 377-417,
    get_int64 419-459, get_int128 461-497.  The rows are the requested type. *)
Definition direct (to from : ik) : bool :=
  match to, from with
  | U8, U8 => true
  | U16, (U8 | I8 | U16) => true
  | U32, (U8 | I8 | U16 | U32) => true
  | U64, (U8 | I8 | U16 | U32 | U64) => true
  | I8, (I8 | U8) => true
  | I16, (I8 | U8 | I16) => true
  | I32, (I8 | U8 | I16 | U16 | I32) => true
  | I64, (I8 | U8 | I16 | U16 | I32 | U32 | I64) => true
  | I128, _ => true
  | _, _ => false
  end.
(** The nine integer getters on an element that is not a floating point number (those are not modelled
    here: their case is [cast_from<float,...>]). *)
Definition get_int (to : ik) (d : doc) (i : nat) : res (result Z) :=
  do t <- tape_type d i;
  match kind_of t with
  | None => Ok INCORRECT_TYPE
  | Some from => if direct to from then conv from to d i else cast_from from to d i
  end.

(** element.cpp:568-574 [get_bool]; tape_ref.cpp [is_bool] tests the top byte *)
Definition get_bool (d : doc) (i : nat) : res (result bool) :=
  do w <- word d i;
  if w / two56 =? T_BOOL then Ok (Val (negb (w mod 256 =? 0))) else Ok INCORRECT_TYPE.
(** element.cpp:594; tape_ref.cpp:78-81: the whole word is compared *)
Definition is_null (d : doc) (i : nat) : res bool := do w <- word d i; Ok (w =? (T_NA * two56) mod two64).
(** element.cpp get_float / get_double on an element of the same type *)
Definition get_float_same (d : doc) (i : nat) : res (result N) :=
  do w <- word d i; if w / two56 =? T_FLOAT then Ok (Val (w mod 2 ^ 32)) else Ok INCORRECT_TYPE.
Definition get_double_same (d : doc) (i : nat) : res (result N) :=
  do w <- word d i; if w / two56 =? T_DOUBLE then do x <- word d (S i); Ok (Val x) else Ok INCORRECT_TYPE.
(** tape_ref.cpp:83-97, element.cpp:113-122 [get_string]: [string_view(ptr, len)]; reading outside the
    buffer is undefined *)
Definition get_string (d : doc) (i : nat) : res (result (list byte)) :=
  do t <- tape_type d i;
  if negb (t =? T_STRING) then Ok INCORRECT_TYPE
  else
    do o <- tape_value d i;
    let o := N.to_nat o in
    if (o + 4 <=? length (sbuf d))%nat then
      let n := N.to_nat (unle (firstn 4 (skipn o (sbuf d)))) in
      if (o + 4 + n <=? length (sbuf d))%nat then Ok (Val (firstn n (skipn (o + 4) (sbuf d)))) else Err UB
    else Err UB.
