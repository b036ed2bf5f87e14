(** C104: the statements on databases, tables and indexes reach the dispatcher as they were written. *)
From Verif Require Import Bytes Outcome CreModel CreSpec CreProofs CixModel CixSpec CixProofs.

(** A statement without options is handed over as what it asks for. (Missing: IF EXISTS, UNIQUE, WHERE, expressions, names of indexes
    left out and indexes of tables whose database is not named; the refutations below.) *)
Theorem C104_partial : forall s p, asks s p -> in_database s -> transform s = Ok p.
Proof. exact asked. Qed.
Print Assumptions C104_partial.

(** CREATE INDEX statements that differ in the table, the name or the fields or their order are told apart. *)
Theorem C104_indexes : forall q q' i i' ks ks' f,
  Forall (fun x => x <> []) q -> Forall (fun x => x <> []) q' ->
  transform (CreateIndex {| unique := false; idxname := Some i; relation := q; params := map Field ks; where_clause := false |}) = Ok f ->
  transform (CreateIndex {| unique := false; idxname := Some i'; relation := q'; params := map Field ks'; where_clause := false |}) = Ok f ->
  q = q' /\ i = i' /\ ks = ks'.
Proof. exact asks_names. Qed.
Print Assumptions C104_indexes.

(** Whatever is done with the statements afterwards: a UNIQUE index is an index like any other, an index WHERE a condition holds is one
    of all documents, and IF EXISTS and IF NOT EXISTS change nothing, so that either both forms fail on what is missing or neither. *)
Theorem C104_options_refuted : forall (state answer : Type) (run : res plan -> state -> answer) t,
  (forall i q ps b b' w w',
    run (transform (CreateIndex {| unique := b; idxname := i; relation := q; params := ps; where_clause := w |})) t =
    run (transform (CreateIndex {| unique := b'; idxname := i; relation := q; params := ps; where_clause := w' |})) t) /\
  (forall os, run (transform (DropTable true os)) t = run (transform (DropTable false os)) t) /\
  (forall os, run (transform (DropIndex true os)) t = run (transform (DropIndex false os)) t) /\
  (forall n, run (transform (DropDatabase true n)) t = run (transform (DropDatabase false n)) t) /\
  (forall q els, run (transform (CreateTable true q els)) t = run (transform (CreateTable false q els)) t).
Proof. intros. repeat split. Qed.
Print Assumptions C104_options_refuted.

(** A key is made of the null pointer for an index of an expression; a table that CREATE TABLE t makes has no indexes: CREATE INDEX and
    DROP INDEX refuse its name. *)
Theorem C104_indexes_refuted :
  transform (CreateIndex {| unique := false; idxname := Some (str "i"); relation := [str "d"; str "t"]; params := [Expression]; where_clause := false |})
    = Err UB /\
  (forall t i ps, transform (CreateTable false [t] []) = Ok (PCreateCollection (Full [] [] [] t) []) /\
    transform (CreateIndex {| unique := false; idxname := i; relation := [t]; params := ps; where_clause := false |}) = Err Throw /\
    forall n, transform (DropIndex false [[t; n]]) = Err Throw) /\
  (forall q ps, transform (CreateIndex {| unique := false; idxname := None; relation := q; params := ps; where_clause := false |}) = Err Throw).
Proof.
  split; [reflexivity|]. split; [repeat split|]. intros q ps. cbn [transform]. unfold create_index. cbn [relation idxname].
  destruct (relname q); [|reflexivity]. destruct (catalogname q); reflexivity.
Qed.
Print Assumptions C104_indexes_refuted.

(** The hypotheses are met. *)
Example ex_asks : asks (CreateIndex {| unique := false; idxname := Some (str "i"); relation := [str "d"; str "t"];
                                       params := [Field (str "a"); Field (str "b")]; where_clause := false |})
                       (PCreateIndex (Full [] (str "d") [] (str "t")) (str "i") [str "a"; str "b"]).
Proof. apply (a_create_index [str "d"; str "t"] (str "i") [str "a"; str "b"]). exists [], (str "d"), []. repeat split. Qed.
Example ex_index : transform (CreateIndex {| unique := false; idxname := Some (str "i"); relation := [str "d"; str "t"];
                                             params := [Field (str "a"); Field (str "b")]; where_clause := false |})
  = Ok (PCreateIndex (Full [] (str "d") [] (str "t")) (str "i") [str "a"; str "b"]).
Proof. apply (C104_partial _ _ ex_asks). cbn. discriminate. Qed.
Example ex_drop : transform (DropIndex false [[str "d"; str "t"; str "i"]]) = Ok (PDropIndex (Full [] (str "d") [] (str "t")) (str "i")).
Proof.
  apply C104_partial; [|cbn; discriminate]. apply (a_drop_index [str "d"; str "t"]). exists [], (str "d"), []. repeat split.
Qed.
Example ex_database : transform (CreateDatabase (str "d")) = Ok (PCreateDatabase (Full [] (str "d") [] [])).
Proof. apply C104_partial; [apply a_create_database|exact I]. Qed.
