(** What reading a stored scalar back must give. *)
From Verif Require Import Bytes Outcome TapeModel.
Local Open Scope N_scope.

Definition type_code (v : scalar) : N :=
  match v with SNull => 127 | SBool _ => 1 | SInt k _ => code k | SFloat _ => 13 | SDouble _ => 14 | SString _ => 15 end.

(** a value of its type *)
Definition scalar_ok (v : scalar) : Prop :=
  match v with
  | SInt k z => (imin k <= z <= imax k)%Z
  | SFloat n => n < 2 ^ 32 | SDouble n => n < 2 ^ 64
  | SString s => N.of_nat (length s) < 2 ^ 32
  | _ => True
  end.

(** element [i] of [d] is [v]: its type and the getter of that type say so *)
Definition reads (d : doc) (i : nat) (v : scalar) : Prop :=
  tape_type d i = Ok (type_code v) /\
  is_null d i = Ok (match v with SNull => true | _ => false end) /\
  match v with
  | SNull => True
  | SBool b => get_bool d i = Ok (Val b)
  | SInt k z => get_int k d i = Ok (Val z)
  | SFloat n => get_float_same d i = Ok (Val n)
  | SDouble n => get_double_same d i = Ok (Val n)
  | SString s => get_string d i = Ok (Val s)
  end.

(** building a list of values; each with whatever the uninitialised variable holds *)
Fixpoint build_all (d : doc) (l : list (N * scalar)) : doc :=
  match l with [] => d | (j, v) :: r => build_all (build j d v) r end.

(** C11: the cases where the type tag is not damaged -- the uninitialised variable has a zero top byte, a
    uint64 is below 2^56 *)
Definition tag_safe (junk : N) (v : scalar) : Prop :=
  match v with
  | SInt (I8 | I16 | I32) _ | SFloat _ => junk < 2 ^ 56
  | SInt U64 z => (z < 2 ^ 56)%Z
  | _ => True
  end.

(** C12: the combinations of stored and requested type, and the numbers, for which the getters silently
    wrap around *)
Definition unsafe_pair (from to : ik) : bool :=
  match from, to with
  | (I16 | I32 | I64 | I128), (U8 | U16 | U32 | U64) => true
  | I8, (U16 | U32 | U64) => true
  | U8, I8 => true
  | _, _ => false
  end.
Definition wraps (from to : ik) (z : Z) : bool :=
  unsafe_pair from to && match from, to with I8, _ => (z <? 0)%Z | _, _ => (imax to <? z)%Z end.

