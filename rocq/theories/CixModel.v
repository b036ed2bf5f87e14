(** CREATE INDEX, CREATE DATABASE, DROP DATABASE and the options of DROP, from the statement as written to the one for the dispatcher:
    components/sql/parser/gram.y 4161 (IF NOT EXISTS), 7733-7752 (IF EXISTS), 8737-8834 (CREATE INDEX), 10875-10883, 11021-11035
    (databases), 15460-15498 (names); components/sql/transformer/impl/transform_index.cpp 9-20,
    components/sql/transformer/impl/transform_database.cpp 6-12; components/sql/transformer/utils.hpp 32-39;
    components/logical_plan/node_create_index.hpp 20-48.
    Simplifications: collations, operator classes, directions, access methods and storage options of CREATE INDEX are left out, the code
    does not look at them; CREATE TABLE and DROP are the functions of CreModel. *)
From Verif Require Import Bytes Outcome CreModel.

Inductive index_elem := Field (n : list byte) | Expression.
Record index_stmt := { unique : bool; idxname : option (list byte); relation : list (list byte); params : list index_elem; where_clause : bool }.
Inductive statement :=
| CreateDatabase (name : list byte)
| DropDatabase (if_exists : bool) (name : list byte)
| CreateTable (if_not_exists : bool) (q : list (list byte)) (els : list element)
| DropTable (if_exists : bool) (objects : list (list (list byte)))
| CreateIndex (s : index_stmt)
| DropIndex (if_exists : bool) (objects : list (list (list byte))).
Inductive plan :=
| PCreateDatabase (f : full_name)
| PDropDatabase (f : full_name)
| PCreateCollection (f : full_name) (cs : list (list byte * ltype))
| PDropCollection (f : full_name)
| PCreateIndex (f : full_name) (name : list byte) (keys : list (list byte))
| PDropIndex (f : full_name) (name : list byte).

(** gram.y 15460-15498: the pointers [catalogname] and [relname] are set *)
Definition catalogname (q : list (list byte)) : option (list byte) :=
  match q with [d; _] => Some d | [d; _; _] => Some d | [_; d; _; _] => Some d | _ => None end.
Definition relname (q : list (list byte)) : option (list byte) :=
  match q with [t] => Some t | [_; t] => Some t | [_; _; t] => Some t | [_; _; _; t] => Some t | _ => None end.
(** transform_index.cpp 16-18: the name of an expression is the null pointer, of which a key is made *)
Fixpoint keys_of (ps : list index_elem) : res (list (list byte)) :=
  match ps with
  | [] => Ok []
  | Field n :: r => do ks <- keys_of r; Ok (n :: ks)
  | Expression :: _ => Err UB
  end.
(** transform_index.cpp 9-20 *)
Definition create_index (s : index_stmt) : res plan :=
  match relname (relation s), catalogname (relation s), idxname s with
  | Some _, Some _, Some i => do ks <- keys_of (params s); Ok (PCreateIndex (range_var (relation s)) i ks)
  | _, _, _ => Err Throw
  end.
(** components/sql/transformer/transformer.cpp 6-30; transform_database.cpp 6-12 *)
Definition transform (s : statement) : res plan :=
  match s with
  | CreateDatabase n => Ok (PCreateDatabase (Full [] n [] []))
  | DropDatabase _ n => Ok (PDropDatabase (Full [] n [] []))
  | CreateTable _ q els => do '(f, cs) <- create_table q els; Ok (PCreateCollection f cs)
  | DropTable _ os => do f <- drop_table os; Ok (PDropCollection f)
  | CreateIndex s => create_index s
  | DropIndex _ os => do '(f, i) <- drop_index os; Ok (PDropIndex f i)
  end.
