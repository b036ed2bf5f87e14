(** Updates of the Python interface: integration/python/sql/wrapper_collection.cpp 105-143 (157-195 are the same) make expressions of a
    dictionary of operators; components/document/document.cpp 65-67, 156-163 ([is_exists], [get_dict]); json_trie_node.cpp 94-99 ([get_mut]
    of what is no single value is a null pointer); components/physical_plan/collection/operators/operator_update.cpp 74-86 runs them in
    order on each document selected.
    Simplifications: names of fields are no paths; what [document_t::update] leaves of a field and what [sum] makes of two values are the
    parameters [put] and [sum] (SetModel has both); a hash table is gone through in the order [order] makes of it. *)
From Coq Require Import Permutation.
From Verif Require Import Bytes Outcome ByteOrd.

Section Updates.
Context {V : Type} (put : option V -> V -> option V) (sum : option V -> V -> V).
Inductive field := One (v : V) | Several (l : list (list byte * field)) | Listed (l : list field).
Context (order : list (list byte * field) -> list (list byte * field)).
Inductive update := Set_ (k : list byte) (v : V) | Add_ (k : list byte) (v : V).

Fixpoint lookup {A} (k : list byte) (l : list (list byte * A)) : option A :=
  match l with [] => None | (k', x) :: r => if beqb k' k then Some x else lookup k r end.
(** 114-119, 122-135: the value is read through the pointer *)
Fixpoint each (make : list byte -> V -> update) (l : list (list byte * field)) : res (list update) :=
  match l with
  | [] => Ok []
  | (k, One v) :: r => do us <- each make r; Ok (make k v :: us)
  | _ => Err UB
  end.
Definition operator (name : list byte) (make : list byte -> V -> update) (fields : list (list byte * field)) : res (list update) :=
  match lookup name fields with
  | None => Ok []
  | Some (Several l) => each make (order l)
  | Some _ => Err UB
  end.
(** 112-136 *)
Definition updates (fields : list (list byte * field)) : res (list update) :=
  do s <- operator (str "$set") Set_ fields;
  do i <- operator (str "$inc") Add_ fields;
  Ok (s ++ i).

Definition document := list byte -> option V.
Definition assign (d : document) (k : list byte) (x : option V) : document := fun k' => if beqb k k' then x else d k'.
(** update_expression.cpp 178-186, 243-262, 374-381 *)
Definition run (d : document) (u : update) : document :=
  match u with
  | Set_ k v => assign d k (put (d k) v)
  | Add_ k v => assign d k (put (d k) (sum (d k) v))
  end.
(** operator_update.cpp 77-79 *)
Definition updated (fields : list (list byte * field)) (d : document) : res document :=
  do us <- updates fields; Ok (fold_left run us d).
End Updates.
Arguments field : clear implicits.
Arguments update : clear implicits.
