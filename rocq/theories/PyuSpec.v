(** What an update of the Python interface is to do. *)
From Coq Require Import Permutation.
From Verif Require Import Bytes Outcome ByteOrd PyuModel.

Section Meaning.
Context {V : Type} (put : option V -> V -> option V) (sum : option V -> V -> V).
(** What the dictionary of operators says under [op]: the fields of [l], or nothing if [op] is not there. *)
Definition says (fields : list (list byte * field V)) (op : list byte) (l : list (list byte * V)) : Prop :=
  In (op, Several (map (fun p => (fst p, One (snd p))) l)) fields \/ (l = [] /\ ~ In op (map fst fields)).
(** A field: first what "$set" says of it, then what "$inc" says of it; a field of which nothing is said stays. *)
Definition after (s i : list (list byte * V)) (d : list byte -> option V) (k : list byte) : option V :=
  let x := match find (fun p => beqb (fst p) k) s with Some (_, v) => put (d k) v | None => d k end in
  match find (fun p => beqb (fst p) k) i with Some (_, v) => put x (sum x v) | None => x end.
End Meaning.
