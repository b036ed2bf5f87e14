(** Statements in the log (C50). *)
From Verif Require Import Bytes Outcome MsgpackModel TapeModel TapeSpec DocPackModel DocPackSpec StmtModel StmtSpec StmtProofs3.
Local Open Scope N_scope.

(** C50: a statement without null pointers, with its parameters, is written to the log, can be read again whatever
    follows, and what is read is known: [back] says which parts are lost or changed. *)
Theorem C50_read_back : forall pf w nf crc id n v p q rest,
  crc < 2 ^ 64 -> id < 2 ^ 64 -> shows n v -> node_ok v = true -> writable v = true -> shows_params p q -> params_ok q ->
  exists bytes m n' p', ser_entry pf crc id n p = Ok bytes /\ unpack (bytes ++ rest) = Some (m, rest) /\
    read_entry w nf m = Ok (crc, id, n', p') /\ shows n' (back v) /\ shows_params p' (params64 q).
Proof. exact entry_round_trip. Qed.
Print Assumptions C50_read_back.

(** It is the same statement (its numbers as in C10) exactly when [kept] holds: a condition on the form of the statement. *)
Theorem C50_round_trip_partial : forall pf w nf crc id n v p q rest,
  crc < 2 ^ 64 -> id < 2 ^ 64 -> shows n v -> node_ok v = true -> writable v = true -> shows_params p q -> params_ok q ->
  exists bytes m n' p', ser_entry pf crc id n p = Ok bytes /\ unpack (bytes ++ rest) = Some (m, rest) /\
    read_entry w nf m = Ok (crc, id, n', p') /\ shows_params p' (params64 q) /\ (shows n' (node64 v) <-> kept v = true).
Proof. exact entry_kept. Qed.
Print Assumptions C50_round_trip_partial.

(** A statement with a null pointer, a match without a condition or rows of a table cannot be written at all. *)
Theorem C50_unwritable : forall pf crc id n v p, shows n v -> writable v = false -> exists e, ser_entry pf crc id n p = Err e.
Proof. exact entry_unwritable. Qed.
Print Assumptions C50_unwritable.

Definition names (d c : string) : coll := {| uid := []; database := str d; schema_name := []; collection := str c |}.
Definition users := names "db" "users".
Definition orders := names "db" "orders".
Definition ex_tape : doc :=
  build_all {| tape := []; sbuf := [] |} [(0, SString (str "_id")); (0, SInt U8 7); (0, SString (str "tags")); (0, SString (str "x")); (0, SNull)].
Definition ex_tree : tree := TObj [(0, TLeaf 1); (2, TArr [TLeaf 3; TLeaf 4])]%nat.
Definition ex_content : content := CObj [(str "_id", CScalar (SInt U8 7)); (str "tags", CArr [CScalar (SString (str "x")); CScalar SNull])].
(** INSERT of a document, with a renamed field *)
Definition ex_insert {A} (x : A) : node A := NInsert users [NData [x]] [(KStr (str "a"), KStr (str "b"))].
(** UPDATE users SET n = n + #1 WHERE a = #0 AND (b.c > #2 OR NOT d = e) LIMIT 1 *)
Definition ex_update {A} : node A :=
  NUpdate users no_coll users
    [ECmp 10 KNone KNone 0
       [ECmp 1 (KStr (str "a")) KNone 0 []; ECmp 11 KNone KNone 0 [ECmp 3 (KStr (str "b/c")) KNone 2 []; ECmp 12 KNone KNone 0 [ECmp 1 (KStr (str "d")) (KStr (str "e")) 0 []]]]]
    users 1 [USet (KStr (str "n")) (UCalc 3 (UGet (KStr (str "n")) 0) (UConst 1))] false.
Definition ex_params : params :=
  {| ptape := build_all {| tape := []; sbuf := [] |} [(0, SInt I64 (-5)); (0, SInt U64 1); (0, SString (str "q"))]; pvals := [(0, Some 0%nat); (1, Some 2%nat); (2, Some 4%nat)] |}.
Definition ex_values : list (N * scalar) := [(0, SInt I64 (-5)); (1, SInt U64 1); (2, SString (str "q"))].
Example C50_example :
  (shows (ex_insert (ex_tape, ex_tree)) (ex_insert ex_content) /\ node_ok (ex_insert ex_content) = true /\ writable (ex_insert ex_content) = true /\ kept (ex_insert ex_content) = true) /\
  (shows ex_update ex_update /\ node_ok ex_update = true /\ writable ex_update = true /\ kept ex_update = true) /\
  shows_params ex_params ex_values /\ params_ok ex_values.
Proof.
  split; [split|split; [split|split]].
  - cbn. repeat constructor.
  - repeat split.
  - reflexivity.
  - repeat split.
  - unfold shows_params, ex_params, ex_values. cbn [pvals all2].
    repeat (split; [split; [reflexivity|eexists; split; [reflexivity|vm_compute; repeat split]]|]). exact I.
  - split; [reflexivity|]. split; [reflexivity|]. split; [|reflexivity]. cbn. repeat constructor; cbn; intuition discriminate.
Qed.

Definition no_params : params := {| ptape := {| tape := []; sbuf := [] |}; pvals := [] |}.
(** The statement [n] is read back as [n'], which is another one. *)
Definition read_as (n n' : node (doc * tree)) : Prop :=
  forall pf w nf, exists bytes m, ser_entry pf 0 1 n no_params = Ok bytes /\ unpack bytes = Some (m, []) /\ read_entry w nf m = Ok (0, 1, n', no_params) /\ n' <> n.
Ltac lost := let pf := fresh in let w := fresh in let nf := fresh in intros pf w nf; do 2 eexists; split; [vm_compute; reflexivity|]; split; [vm_compute; reflexivity|]; split; [vm_compute; reflexivity|discriminate].

(** INSERT INTO users SELECT … FROM users JOIN orders ON a = b: the condition of the join is not in the log. *)
Definition ex_join (es : list expr) : node (doc * tree) := NInsert users [NAggregate users [NJoin 0 users [NAggregate users []; NAggregate orders []] es]] [].
Theorem C50_join_condition_refuted : read_as (ex_join [ECmp 1 (KStr (str "a")) (KStr (str "b")) 0 []]) (ex_join []).
Proof. lost. Qed.
Print Assumptions C50_join_condition_refuted.

(** CREATE TABLE users (a, b): the table comes back without columns. *)
Theorem C50_columns_refuted : read_as (NCreateColl users [(str "a", 7); (str "b", 15)]) (NCreateColl users []).
Proof. lost. Qed.
Print Assumptions C50_columns_refuted.

(** DELETE FROM users USING orders WHERE a = b: comes back without the second collection. *)
Theorem C50_using_refuted :
  read_as (NDelete users orders users [ECmp 1 (KStr (str "a")) (KStr (str "b")) 0 []] users (-1))
          (NDelete users no_coll users [ECmp 1 (KStr (str "a")) (KStr (str "b")) 0 []] users (-1)).
Proof. lost. Qed.
Print Assumptions C50_using_refuted.

(** The parameter #3 as an argument of an expression comes back as the key 3. *)
Theorem C50_argument_refuted :
  read_as (NInsert users [NAggregate users [NGroup users [EScalar 1 (KStr (str "x")) [PId 3]]]] [])
          (NInsert users [NAggregate users [NGroup users [EScalar 1 (KStr (str "x")) [PKey (KInt 3)]]]] []).
Proof. lost. Qed.
Print Assumptions C50_argument_refuted.

(** Positions: an unsigned one comes back signed, a negative one unsigned. *)
Theorem C50_position_refuted :
  read_as (NCreateIndex 0 users (str "i") [KUint 4294967295; KInt (-2)]) (NCreateIndex 0 users (str "i") [KInt (-1); KUint 4294967294]).
Proof. lost. Qed.
Print Assumptions C50_position_refuted.

(** A collection with a schema comes back as the one without. *)
Theorem C50_schema_refuted :
  read_as (NDropColl {| uid := str "u"; database := str "db"; schema_name := str "s"; collection := str "t" |}) (NDropColl (names "db" "t")).
Proof. lost. Qed.
Print Assumptions C50_schema_refuted.

(** An update with an operator of one operand, n = |n|: writing it follows a null pointer. *)
Theorem C50_unary_refuted : forall pf crc id p,
  ser_entry pf crc id (NUpdate users no_coll users [ECmp 13 KNone KNone 0 []] users (-1) [USet (KStr (str "n")) (UCalc 12 (UGet (KStr (str "n")) 0) UNull)] false) p = Err UB.
Proof. reflexivity. Qed.
Print Assumptions C50_unary_refuted.

(** INSERT of rows of a table: the exception leaves the function that was to write the record. *)
Theorem C50_rows_refuted : forall pf crc id p, ser_entry pf crc id (NInsert users [NChunk [[SInt I64 1]]] []) p = Err Throw.
Proof. reflexivity. Qed.
Print Assumptions C50_rows_refuted.
