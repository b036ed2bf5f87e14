(** C09, C79. *)
From Coq Require Import List NArith ZArith Bool Permutation.
From Verif Require Import Bytes Outcome.
From Verif Require Import QueryModel CrashModel CrashSpec CrashRecov CrashFind.
Import ListNotations.

(** C09.  Every sequence of statements, steps of the actors and crashes within [guarded] (CrashSpec) runs without an error.
    When nothing is under way, what clients see is the effect of a history [h]: the statements of [h] are among those that
    were sent, each at most once, and all statements that were answered with success are in [h], in the order of their
    answers.  Not covered: what [guarded] leaves out, see the theorems below. *)
Theorem C09_survives_partial : forall es, guarded fresh es = true -> exists s, run fresh es = Ok s /\
  (idle s = true -> exists h, subseq (s_acked s) h /\ (exists rest, Permutation (h ++ rest) (submitted es)) /\
     forall c, same (visible s c) (effects h c)).
Proof. exact survives. Qed.
Print Assumptions C09_survives_partial.

(** … and the actors always come to the point where nothing is under way. *)
Theorem C09_rest_partial : forall es, guarded fresh es = true -> exists es' s,
  forallb (fun e => match e with Disp | Exec | Log => true | _ => false end) es' = true /\
  guarded fresh (es ++ es') = true /\ run fresh (es ++ es') = Ok s /\ idle s = true.
Proof. exact comes_to_rest. Qed.
Print Assumptions C09_rest_partial.

Definition d1 : doc := {| did := 1; fields := [(str "n", DInt TapeModel.I64 1)] |}.
Definition d2 : doc := {| did := 2; fields := [(str "n", DInt TapeModel.I64 2)] |}.
Definition d3 : doc := {| did := 3; fields := [(str "n", DInt TapeModel.I64 3)] |}.
Definition c1 : coll := (1, 1)%N.
Definition c2 : coll := (1, 2)%N.
Definition any : doc -> bool := fun _ => true.
Definition low : doc -> bool := fun d => N.ltb (did d) 3.

(** Two collections; a crash with two statements only in the log, a second crash before the restart has changed the disk,
    a third in the middle of a delete, a fourth with a created collection only in the log. *)
Definition ex_run : list event :=
  go (CreateDb 1) ++ go (CreateColl c1) ++ agents 4 ++ go (Insert c1 [d1; d2]) ++ go (Insert c1 [d3]) ++ recover 0 ++ recover 2 ++ agents 9 ++
  go (Delete c1 low (-1)) ++ agents 1 ++ recover 1 ++ agents 9 ++ go (CreateColl c2) ++ recover 1 ++ agents 2 ++ go (Insert c2 [d1]).
Example C09_survives_ex : guarded fresh ex_run = true /\
  match run fresh ex_run with
  | Ok s => idle s = true /\ length (s_acked s) = 7 /\ seen s c1 1 = None /\ seen s c1 2 = None /\ seen s c1 3 = Some d3 /\ seen s c2 1 = Some d1
  | Err _ => False
  end.
Proof. vm_compute. repeat split. Qed.

(** An update that was answered: after a restart the changed document is gone, since only the removal of the old one was
    sent to the disk. *)
Definition ex_update : list event :=
  go (CreateDb 1) ++ go (CreateColl c1) ++ go (Insert c1 [d1]) ++ go (Update c1 any (-1) (fun _ => d2)) ++ agents 9 ++ recover 0.
Theorem C09_update_refuted : exists s, run fresh ex_update = Ok s /\ idle s = true /\
  s_acked s = [CreateDb 1; CreateColl c1; Insert c1 [d1]; Update c1 any (-1) (fun _ => d2)] /\ visible s c1 <> None /\ seen s c1 1 = None.
Proof. exists (state_after ex_update). found. Qed.
Print Assumptions C09_update_refuted.

(** A database that was dropped is back. *)
Definition ex_drop : list event :=
  go (CreateDb 1) ++ go (CreateColl c1) ++ go (Insert c1 [d1]) ++ agents 9 ++ go (DropDb 1) ++ recover 0.
Theorem C09_drop_database_refuted : exists s, run fresh ex_drop = Ok s /\ idle s = true /\
  s_acked s = [CreateDb 1; CreateColl c1; Insert c1 [d1]; DropDb 1] /\ seen s c1 1 = Some d1.
Proof. exists (state_after ex_drop). found. Qed.
Print Assumptions C09_drop_database_refuted.

(** The first database is in the log and not yet on the disk: the log is not read. *)
Definition ex_first : list event := go (CreateDb 1) ++ go (CreateColl c1) ++ go (Insert c1 [d1]) ++ recover 3.
Theorem C09_first_database_refuted : exists s, run fresh ex_first = Ok s /\ idle s = true /\
  s_acked s = [CreateDb 1; CreateColl c1; Insert c1 [d1]] /\ visible s c1 = None.
Proof. exists (state_after ex_first). found. Qed.
Print Assumptions C09_first_database_refuted.

(** A collection and its first documents are in the log and not yet on the disk: the insert is checked before the creation
    is in the catalogue, and left out. *)
Definition ex_create_insert : list event := go (CreateDb 1) ++ agents 9 ++ go (CreateColl c1) ++ go (Insert c1 [d1]) ++ recover 2.
Theorem C09_create_insert_refuted : exists s, run fresh ex_create_insert = Ok s /\ idle s = true /\
  s_acked s = [CreateDb 1; CreateColl c1; Insert c1 [d1]] /\ visible s c1 <> None /\ seen s c1 1 = None.
Proof. exists (state_after ex_create_insert). found. Qed.
Print Assumptions C09_create_insert_refuted.

(** For the same reason a collection that was created and dropped exists, and one that was dropped and created does not. *)
Definition ex_create_drop : list event := go (CreateDb 1) ++ agents 9 ++ go (CreateColl c1) ++ go (DropColl c1) ++ recover 2.
Theorem C09_create_drop_refuted : exists s, run fresh ex_create_drop = Ok s /\ idle s = true /\
  s_acked s = [CreateDb 1; CreateColl c1; DropColl c1] /\ visible s c1 <> None.
Proof. exists (state_after ex_create_drop). found. Qed.
Print Assumptions C09_create_drop_refuted.
Definition ex_drop_create : list event :=
  go (CreateDb 1) ++ go (CreateColl c1) ++ agents 9 ++ go (DropColl c1) ++ go (CreateColl c1) ++ recover 2.
Theorem C09_drop_create_refuted : exists s, run fresh ex_drop_create = Ok s /\ idle s = true /\
  s_acked s = [CreateDb 1; CreateColl c1; DropColl c1; CreateColl c1] /\ visible s c1 = None.
Proof. exists (state_after ex_drop_create). found. Qed.
Print Assumptions C09_drop_create_refuted.

(** A crash between two documents of one insert: the restart refuses the whole insert because of the first. *)
Definition ex_batch : list event := go (CreateDb 1) ++ go (CreateColl c1) ++ agents 9 ++ go (Insert c1 [d1; d2]) ++ agents 1 ++ recover 1.
Theorem C09_batch_refuted : exists s, run fresh ex_batch = Ok s /\ idle s = true /\
  s_acked s = [CreateDb 1; CreateColl c1; Insert c1 [d1; d2]] /\ seen s c1 1 = Some d1 /\ seen s c1 2 = None.
Proof. exists (state_after ex_batch). found. Qed.
Print Assumptions C09_batch_refuted.

(** Deleting one document, a crash before the recovery point is moved: the restart deletes another one. *)
Definition ex_limit : list event :=
  go (CreateDb 1) ++ go (CreateColl c1) ++ go (Insert c1 [d1; d2]) ++ agents 9 ++ go (Delete c1 any 1) ++ agents 1 ++ recover 1.
Theorem C09_limit_refuted : exists s, run fresh ex_limit = Ok s /\ idle s = true /\
  s_acked s = [CreateDb 1; CreateColl c1; Insert c1 [d1; d2]; Delete c1 any 1] /\ seen s c1 1 = None /\ seen s c1 2 = None.
Proof. exists (state_after ex_limit). found. Qed.
Print Assumptions C09_limit_refuted.

(** A second crash while the log is replayed: the first record moved the recovery point behind all of them. *)
Definition ex_twice : list event :=
  go (CreateDb 1) ++ go (CreateColl c1) ++ agents 9 ++ go (Insert c1 [d1]) ++ go (Insert c1 [d2]) ++ recover 2 ++ agents 2 ++ recover 2.
Theorem C09_second_crash_refuted : exists s, run fresh ex_twice = Ok s /\ idle s = true /\
  s_acked s = [CreateDb 1; CreateColl c1; Insert c1 [d1]; Insert c1 [d2]] /\ seen s c1 1 = Some d1 /\ seen s c1 2 = None.
Proof. exists (state_after ex_twice). found. Qed.
Print Assumptions C09_second_crash_refuted.

(** An insert and the removal of its collection in the log: the restart frees the collection before the insert is carried
    out on it. *)
Definition ex_dangling : list event :=
  go (CreateDb 1) ++ go (CreateColl c1) ++ agents 9 ++ go (Insert c1 [d1]) ++ go (DropColl c1) ++ recover 2.
Theorem C09_dangling_refuted : run fresh ex_dangling = Err UB.
Proof. vm_compute. reflexivity. Qed.
Print Assumptions C09_dangling_refuted.

(** Without any crash: a collection in a database that does not exist is created with success, and is not there. *)
Definition ex_missing : list event := go (CreateColl c1).
Theorem C09_missing_database_refuted : exists s, run fresh ex_missing = Ok s /\ idle s = true /\ s_acked s = [CreateColl c1] /\ visible s c1 = None.
Proof. exists (state_after ex_missing). found. Qed.
Print Assumptions C09_missing_database_refuted.

(** C79.  A collection that is dropped and created again is empty, and no other collection changes. *)
Theorem C79_collection_partial : forall s c l, idle s = true -> has_coll (s_cat s) c = true -> s_store s c = Some l ->
  exists s', run s (go (DropColl c) ++ go (CreateColl c)) = Ok s' /\ s_acked s' = s_acked s ++ [DropColl c; CreateColl c] /\
    same (visible s' c) (Some (fun _ => None)) /\ forall c', c' <> c -> visible s' c' = visible s c'.
Proof. exact drop_create. Qed.
Print Assumptions C79_collection_partial.
Example C79_collection_ex : let s := state_after (go (CreateDb 1) ++ go (CreateColl c1) ++ go (Insert c1 [d1])) in
  idle s = true /\ has_coll (s_cat s) c1 = true /\ s_store s c1 = Some [d1].
Proof. vm_compute. auto. Qed.

(** When instead the database is dropped and created, the collection created in it has the old documents. *)
Definition ex_again : list event :=
  go (CreateDb 1) ++ go (CreateColl c1) ++ go (Insert c1 [d1]) ++ go (DropDb 1) ++ go (CreateDb 1) ++ go (CreateColl c1).
Theorem C79_database_refuted : exists s, run fresh ex_again = Ok s /\ idle s = true /\
  s_acked s = [CreateDb 1; CreateColl c1; Insert c1 [d1]; DropDb 1; CreateDb 1; CreateColl c1] /\ seen s c1 1 = Some d1.
Proof. exists (state_after ex_again). found. Qed.
Print Assumptions C79_database_refuted.
