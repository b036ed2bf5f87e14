(** The schema of a schemaless collection, computed from the fields of its documents
    (components/catalog/computed_schema.cpp), over the versioned trie of TrieModel.v. *)
From Verif Require Import Bytes Outcome ByteOrd TrieModel.

(** types.cpp 116-120: [complex_logical_type::operator==] compares the logical type only; the
    extension (element type of an array, fields of a struct, ...) is not compared. *)
Record ty := Ty { ty_kind : N; ty_ext : N }.
Definition ty_eqb (a b : ty) : bool := (ty_kind a =? ty_kind b)%N.

(** trie_containers.hpp 12-34 [versioned_entry]: a type and a 64-bit reference count. *)
Notation entry := (ty * N)%type (only parsing).
Definition U64 : N := (2 ^ 64)%N.
(** trie_containers.hpp 17. *)
Definition add_ref (e : entry) : entry := (fst e, (snd e + 1) mod U64)%N.
(** trie_containers.hpp 25: [max(ref_count_, n) - n]. *)
Definition release_n (n : N) (e : entry) : entry := (fst e, N.max (snd e) n - n)%N.
(** trie_containers.hpp 27. *)
Definition is_alive (e : entry) : bool := (0 <? snd e)%N.

(** Key elements are chars, compared by std::less<char> (char is signed on the supported
    platforms). *)
Definition schar (b : byte) : N := ((N_of_byte b + 128) mod 256)%N.
Definition char_ltb (a b : byte) : bool := (schar a <? schar b)%N.

(** computed_schema.hpp: [fields_] and [existing_versions_].  The latter maps a name to a reference
    to the versions in the node of that name, so only the names are kept here. *)
Record cschema := CSchema { fields : trie byte (ty * N); existing : list (list byte) }.
Definition empty_schema : cschema := CSchema empty_trie [].

(** How a call ends.  [Freed]: on its way out the call reads a trie node it destroyed
    (TrieModel.erase); the state is the one left when that read does nothing. *)
Inductive out := Done | Thrown | Freed.

Definition listed (s : cschema) (f : list byte) : bool := existsb (beqb f) (existing s).
Definition versions (s : cschema) (f : list byte) : list (N * entry) :=
  match find char_ltb (fields s) f with Some vs => vs | None => [] end.

(** std::find_if over the versions in id order (computed_schema.cpp 72-77), and a change of the
    version found. *)
Fixpoint on_first (t : ty) (g : entry -> entry) (vs : list (N * entry)) : list (N * entry) :=
  match vs with
  | [] => []
  | (i, e) :: r => if ty_eqb (fst e) t then (i, g e) :: r else (i, e) :: on_first t g r
  end.
Definition has_type (t : ty) (vs : list (N * entry)) : bool := existsb (fun v => ty_eqb (fst (snd v)) t) vs.
(** A change of the latest version (computed_schema.cpp 16). *)
Definition on_last (g : entry -> entry) (vs : list (N * entry)) : list (N * entry) :=
  match rev vs with
  | [] => []
  | (i, e) :: r => rev ((i, g e) :: r)
  end.

(** computed_schema.cpp 8-18 [append], with 65-98 [try_use_refcout] for [is_append]. *)
Definition append (s : cschema) (f : list byte) (t : ty) : cschema * out :=
  if listed s f && has_type t (versions s f)
  then (CSchema (update char_ltb (fields s) f (on_first t add_ref)) (existing s), Done)
  else
    let '(fs, ok) := insert char_ltb (fields s) f (t, 0%N) in
    if ok
    then (CSchema (update char_ltb fs f (on_last add_ref))
                  (if listed s f then existing s else f :: existing s), Done)
    else (CSchema fs (existing s), Thrown).

(** computed_schema.cpp 29-33 [drop_n], with 65-98; [drop] (20-27) is the case n = 1. *)
Definition drop_n (s : cschema) (f : list byte) (t : ty) (n : N) : cschema * out :=
  if listed s f && has_type t (versions s f)
  then
    let fs := update char_ltb (fields s) f (on_first t (release_n n)) in
    let s1 := CSchema fs (existing s) in
    if has_alive is_alive (versions s1 f) then (s1, Done)
    else
      let '(fs', freed) := erase char_ltb is_alive fs f in
      (CSchema fs' (filter (fun g => negb (beqb f g)) (existing s)), if freed then Freed else Done)
  else (s, Done).

(** computed_schema.cpp 35-49.  That the name exists is only asserted: otherwise the end iterator
    is dereferenced. *)
Definition find_field_versions (s : cschema) (f : list byte) : res (list ty) :=
  if listed s f
  then Ok (map (fun v => fst (snd v)) (filter (fun v => is_alive (snd v)) (versions s f)))
  else Err UB.

(** computed_schema.cpp 51-63: the fields of the struct, in the order of an unordered_map (here:
    newest name first). *)
Definition latest_types_struct (s : cschema) : list (list byte * ty) :=
  flat_map (fun f =>
    match rev (versions s f) with
    | (_, e) :: _ => if is_alive e then [(f, fst e)] else []
    | [] => []
    end) (existing s).

(** A history of calls. *)
Inductive op := Append (f : list byte) (t : ty) | Drop (f : list byte) (t : ty) (n : N).
Definition step (s : cschema) (o : op) : cschema * out :=
  match o with Append f t => append s f t | Drop f t n => drop_n s f t n end.
Fixpoint run (s : cschema) (h : list op) : cschema * list out :=
  match h with
  | [] => (s, [])
  | o :: h' => let '(s1, x) := step s o in let '(s2, xs) := run s1 h' in (s2, x :: xs)
  end.
