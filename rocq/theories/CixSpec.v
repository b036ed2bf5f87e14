(** What a statement on databases, tables and indexes asks for. *)
From Verif Require Import Bytes Outcome CreModel CreSpec CixModel.

Inductive asks : statement -> plan -> Prop :=
| a_create_database n : asks (CreateDatabase n) (PCreateDatabase (Full [] n [] []))
| a_drop_database n : asks (DropDatabase false n) (PDropDatabase (Full [] n [] []))
| a_create_table q els f cs : stands_for q f -> declares els cs -> Forall one_bound els ->
    asks (CreateTable false q els) (PCreateCollection f cs)
| a_drop_table q f : stands_for q f -> asks (DropTable false [q]) (PDropCollection f)
| a_create_index q i ks f : stands_for q f ->
    asks (CreateIndex {| unique := false; idxname := Some i; relation := q; params := map Field ks; where_clause := false |})
         (PCreateIndex f i ks)
| a_drop_index q i f : stands_for q f -> asks (DropIndex false [q ++ [i]]) (PDropIndex f i).
(** Indexes belong to tables of a database that is named. *)
Definition in_database (s : statement) : Prop :=
  match s with
  | CreateIndex s => length (relation s) <> 1%nat
  | DropIndex _ [q] => length q <> 2%nat
  | _ => True
  end.
