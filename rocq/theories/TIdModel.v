(** The ids of tables in the catalogue: components/catalog/table_id.cpp 5-98; components/base/collection_full_name.hpp 12-37.
    The names handed over as [c_str()] end at their first zero byte.
    Simplification: a name is long enough to be held in memory, allocation does not fail. *)
From Verif Require Import Bytes Outcome.

Record full_name := Full { uid : list byte; database : list byte; schema : list byte; collection : list byte }.
Record table_id := Id { namespace : list (list byte); table_name : list byte }.

Definition zero : byte := Ascii.zero.
Definition dot : byte := "."%char.
(** what is left of a string that goes through [const char*] *)
Fixpoint c_str (s : list byte) : list byte :=
  match s with
  | [] => []
  | c :: r => if Ascii.eqb c zero then [] else c :: c_str r
  end.
Definition is_empty (s : list byte) : bool := match s with [] => true | _ => false end.
(** 44-60: the id of a collection *)
Definition of_full (f : full_name) : table_id :=
  let has_schema := negb (is_empty (schema f)) in
  let has_uid := negb (is_empty (uid f)) in
  Id ((if has_uid then [c_str (uid f)] else []) ++ (if has_schema || has_uid then [c_str (schema f)] else []) ++ [c_str (database f)])
     (collection f).
(** 5-9, 74-85: [name_from_vector] hands the last one, two or three parts to the constructor with two, three or four arguments *)
Definition to_full (t : table_id) : full_name :=
  let name := c_str (table_name t) in
  match rev (map c_str (namespace t)) with
  | [] => Full [] [] [] name
  | [d] => Full [] d [] name
  | [s; d] => Full [] d s name
  | s :: d :: u :: _ => Full u d s name
  end.
(** 11-29 [split_namespace]: the part read so far, the rest of the text; nothing is made of an empty rest *)
Fixpoint split (part : list byte) (s : list byte) : list (list byte) :=
  match s with
  | [] => match part with [] => [] | _ => [part] end
  | c :: r => if Ascii.eqb c dot then part :: split [] r else split (part ++ [c]) r
  end.
(** 32-37, 66-68 *)
Definition of_parts (ps : list (list byte)) : res table_id :=
  match ps with [] => Err UB | _ => Ok (Id (removelast ps) (last ps [])) end.
Definition parse (s : list byte) : res table_id := of_parts (split [] s).
(** 87-98 *)
Fixpoint joined (ps : list (list byte)) : list byte :=
  match ps with
  | [] => []
  | [p] => p
  | p :: r => p ++ dot :: joined r
  end.
Definition to_string (t : table_id) : list byte := joined (namespace t) ++ dot :: table_name t.
