(** Documents as JSON text: [document_t::to_json] and [document_t::document_from_json] (components/document/document.cpp
    460-518, 579-627, 880-916), json_trie_node.cpp 119-131, container/json_object.cpp 96-108, container/json_array.cpp
    59-70.  A document is a tree on a tape (DocPackModel, TapeModel).
    Not modelled: the text of floating point numbers ([sprintf] of a double writes up to 25 characters in a buffer of 24,
    888-916), and the JSON parser of boost, whose result [load] takes as a tree. *)
From Verif Require Import Bytes Outcome TapeModel DocPackModel.
Local Open Scope N_scope.

(** The quotation mark. *)
Definition mark : list byte := [byte_of_N 34].

(** The decimal digits of a number, as [sprintf] writes them. *)
Definition digit_byte (n : N) : byte := byte_of_N (48 + n).
Fixpoint decimal (fuel : nat) (n : N) (acc : list byte) : list byte :=
  match fuel with
  | O => acc
  | S f => let acc' := digit_byte (n mod 10) :: acc in if n / 10 =? 0 then acc' else decimal f (n / 10) acc'
  end.
Definition unsigned_text (n : N) : list byte := decimal (S (N.to_nat (N.size n))) n [].
Definition signed_text (z : Z) : list byte := if (z <? 0)%Z then str "-" ++ unsigned_text (Z.to_N (- z)) else unsigned_text (Z.to_N z).

(** [create_pmr_string_] (document.cpp 894-916): "%i" for a signed and "%u" for an unsigned type of any width.  Narrow
    values become an [int].  A value of 64 bits does not have the type the format asks for; the library reads the low 32
    bits of it (the language leaves it undefined). *)
Definition int_text (k : ik) (z : Z) : list byte :=
  if signed k then signed_text (cast I32 z) else unsigned_text (Z.to_N (cast U32 z)).

Section Print.
  (** The text of a float or a double. *)
  Variable floating_text : doc -> nat -> res (list byte).

  (** [value_to_string] (579-625). *)
  Definition print_element (d : doc) (i : nat) : res (list byte) :=
    do t <- tape_type d i;
    if t =? T_BOOL then do b <- value (get_bool d i); Ok (if b then str "true" else str "false")
    else if t =? T_STRING then do s <- value (get_string d i); Ok (mark ++ s ++ mark)
    else if t =? T_NA then Ok (str "null")
    else if (t =? T_FLOAT) || (t =? T_DOUBLE) then floating_text d i
    else match kind_of t with
         | Some I128 => Ok (str "hugeint")
         | Some k => do z <- value (get_int k d i); Ok (int_text k z)
         | None => Ok []
         end.

  (** [json_trie_node::to_json] (119-131) with the loops of objects and arrays: a comma when there is text behind the
      bracket already. *)
  Definition comma (res : list byte) : list byte := if (1 <? length res)%nat then res ++ str "," else res.
  Fixpoint print (d : doc) (t : tree) : res (list byte) :=
    match t with
    | TLeaf i => print_element d i
    | TObj fs =>
      (fix go l res := match l with
                       | [] => Ok (res ++ str "}")
                       | (k, v) :: r => do x <- print_element d k; do y <- print d v; go r (comma res ++ x ++ str ":" ++ y)
                       end) fs (str "{")
    | TArr ls =>
      (fix go l res := match l with
                       | [] => Ok (res ++ str "]")
                       | v :: r => do y <- print d v; go r (comma res ++ y)
                       end) ls (str "[")
    | TDel => Ok (str "DELETER")
    end.
End Print.

(** ** From JSON *)
(** The values of the parser; integers are an int64 or, above it, an uint64. *)
Inductive json := JNull | JBool (b : bool) | JInt (z : Z) | JStr (s : list byte) | JArr (l : list json)
| JObj (l : list (list byte * json)).

(** [build_primitive] (460-480) and the last case of [build_index] (501-505). *)
Definition scalar_of (j : json) : option scalar :=
  match j with
  | JNull => Some SNull
  | JBool b => Some (SBool b)
  | JInt z => Some (if fits I64 z then SInt I64 z else SInt U64 z)
  | JStr s => Some (SString s)
  | _ => None
  end.
Definition json_leaf (j : json) (d : doc) : nat * doc :=
  (next_element d, match scalar_of j with Some s => build 0 d s | None => d end).

Section Load.
  (** The name of a field and its value are arguments of one call, evaluated in an order the language leaves open. *)
  Variable name_first : bool.
  (** [build_index] (482-507). *)
  Fixpoint load (j : json) (d : doc) : tree * doc :=
    match j with
    | JObj l =>
      let '(fs, d') := (fix go l d := match l with
                        | [] => ([], d)
                        | (k, v) :: r =>
                          let '(i, t, d1) :=
                            if name_first then let '(i, e) := json_leaf (JStr k) d in let '(t, e') := load v e in (i, t, e')
                            else let '(t, e) := load v d in let '(i, e') := json_leaf (JStr k) e in (i, t, e') in
                          let '(fs, d2) := go r d1 in ((i, t) :: fs, d2)
                        end) l d in
      (TObj fs, d')
    | JArr l =>
      let '(ts, d') := (fix go l d := match l with
                        | [] => ([], d)
                        | v :: r => let '(t, d1) := load v d in let '(ts, d2) := go r d1 in (t :: ts, d2)
                        end) l d in
      (TArr ts, d')
    | _ => let '(i, d') := json_leaf j d in (TLeaf i, d')
    end.
  (** [document_from_json] (509-518) after the parser: [get_object] of anything else is undefined. *)
  Definition load_document (j : json) : res (tree * doc) :=
    match j with JObj _ => Ok (load j {| tape := []; sbuf := [] |}) | _ => Err UB end.
End Load.
