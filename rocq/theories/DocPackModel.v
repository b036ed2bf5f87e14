(** Documents in the storage format: components/document/msgpack/msgpack_encoder.hpp and msgpack_encoder.cpp.
    A document is a tree whose leaves and names are elements of its tape (TapeModel). *)
From Verif Require Import Bytes Outcome MsgpackModel TapeModel.
Local Open Scope N_scope.

(** [json_trie_node] (json_trie_node.hpp 13-95): an object has its names and values in the order of its hash map.  [TDel]
    is the deleter node of an update. *)
Inductive tree := TLeaf (i : nat) | TObj (fs : list (nat * tree)) | TArr (ls : list tree) | TDel.

(** [packer::pack] of an integer: the smallest form, as an unsigned number when it is not negative. *)
Definition pack_int (z : Z) : list byte := if (0 <=? z)%Z then enc_uint (Z.to_N z) else enc_neg (Z.to_N (- z - 1)).

(** [.value()] of a result: an error is thrown. *)
Definition value {A} (r : res (result A)) : res A := do x <- r; match x with Val a => Ok a | _ => Err Throw end.

Section Pack.
  (** Packing an element that is a float or a double: the conversion to double and [packer::pack_double] of the library
      are not modelled. *)
  Variable pack_floating : doc -> nat -> res (list byte).

  (** [to_msgpack_(packer, element)] (msgpack_encoder.hpp 13-50): a HUGEINT is in no case and packs nothing. *)
  Definition pack_element (d : doc) (i : nat) : res (list byte) :=
    do t <- tape_type d i;
    if t =? T_BOOL then do b <- value (get_bool d i); Ok (enc (MBool b))
    else if t =? T_STRING then do s <- value (get_string d i); Ok (enc (MStr s))
    else if t =? T_NA then Ok (enc MNil)
    else if (t =? T_FLOAT) || (t =? T_DOUBLE) then pack_floating d i
    else match kind_of t with
         | Some (U8 | U16 | U32 | U64) => do z <- value (get_int U64 d i); Ok (enc_uint (Z.to_N z))
         | Some (I8 | I16 | I32 | I64) => do z <- value (get_int I64 d i); Ok (pack_int z)
         | _ => Ok []
         end.

  (** [to_msgpack_(packer, json_trie_node)] (52-71). *)
  Fixpoint pack_tree (d : doc) (t : tree) : res (list byte) :=
    match t with
    | TLeaf i => pack_element d i
    | TObj fs =>
      do b <- (fix go l := match l with
                           | [] => Ok []
                           | (k, v) :: r => do x <- pack_element d k; do y <- pack_tree d v; do z <- go r; Ok (x ++ y ++ z)
                           end) fs;
      Ok (enc_map_head (N.of_nat (length fs)) ++ b)
    | TArr ls =>
      do b <- (fix go l := match l with [] => Ok [] | v :: r => do y <- pack_tree d v; do z <- go r; Ok (y ++ z) end) ls;
      Ok (enc_arr_head (N.of_nat (length ls)) ++ b)
    | TDel => Ok []
    end.
End Pack.

Section Unpack.
  (** The double of a 32 bit floating point number, made by the library. *)
  Variable widen : N -> N.

  (** [build_primitive] (msgpack_encoder.cpp 4-26).  No value of a narrow type is built, so the uninitialised variable of
      [build] is not read. *)
  Definition primitive (m : mp) : option scalar :=
    match m with
    | MNil => Some SNull
    | MBool b => Some (SBool b)
    | MUint n => Some (SInt U64 (Z.of_N n))
    | MNeg n => Some (SInt I64 (- Z.of_N n - 1))
    | MF32 b => Some (SDouble (widen b))
    | MF64 b => Some (SDouble b)
    | MStr s => Some (SString s)
    | _ => None
    end.
  (** The last case of [build_index] (48-51). *)
  Definition leaf (m : mp) (d : doc) : nat * doc :=
    (next_element d, match primitive m with Some s => build 0 d s | None => d end).

  (** [build_index] (28-54).  The name of a field and its value are arguments of one call, evaluated in an order the
      language leaves open: [name_first].  Simplifications: a name that is an object or array, which makes no sense, is
      taken as an empty element; [set] with a name that is already there, which the encoder does not write, appends. *)
  Variable name_first : bool.
  Fixpoint build_index (m : mp) (d : doc) : tree * doc :=
    match m with
    | MMap l =>
      let '(fs, d') := (fix go l d := match l with
                        | [] => ([], d)
                        | (k, v) :: r =>
                          let '(i, t, d1) :=
                            if name_first then let '(i, e) := leaf k d in let '(t, e') := build_index v e in (i, t, e')
                            else let '(t, e) := build_index v d in let '(i, e') := leaf k e in (i, t, e') in
                          let '(fs, d2) := go r d1 in ((i, t) :: fs, d2)
                        end) l d in
      (TObj fs, d')
    | MArr l =>
      let '(ts, d') := (fix go l d := match l with
                        | [] => ([], d)
                        | v :: r => let '(t, d1) := build_index v d in let '(ts, d2) := go r d1 in (t :: ts, d2)
                        end) l d in
      (TArr ts, d')
    | _ => let '(i, d') := leaf m d in (TLeaf i, d')
    end.
  (** [to_document] (86-91, 56-64): only a map; the tape of the new document is empty. *)
  Definition to_document (m : mp) : res (tree * doc) :=
    match m with MMap _ => Ok (build_index m {| tape := []; sbuf := [] |}) | _ => Err Throw end.
End Unpack.
