(** Properties of the indexes of collections and of their definitions on disk. *)
From Verif Require Import Bytes Outcome ByteOrd StmtModel IxMetaModel IxMetaSpec IxMetaProofs3.
Local Open Scope N_scope.

(** * C92: the indexes of a collection are those created and not dropped, also after a restart *)
(** Every statement is answered as expected, and every collection has, in their order, the indexes that were created on it
    and not dropped.  Missing: a name that an index of another collection has, and dropping a collection when one of its
    name had an index since the start. *)
Theorem C92_partial : forall l, fair nothing l = true ->
  exists s, run start l = Ok (s, snd (expect_all nothing l)) /\ forall c, seen s c = expected (fst (expect_all nothing l)) c.
Proof. exact indexes_kept. Qed.
Print Assumptions C92_partial.

Definition ex_t : full := (str "db1", str "t").
Definition ex_t2 : full := (str "db2", str "t").
Definition ex_u : full := (str "db1", str "u").
Definition on (c : full) (n : string) (k : string) : def :=
  {| dtype := 0; dcoll := {| uid := []; database := fst c; schema_name := []; collection := snd c |}; dname := str n; dkeys := [KStr (str k)] |}.
Definition ex_history : list op :=
  [CreateColl ex_t; CreateColl ex_u; CreateIndex (on ex_t "i" "a"); CreateIndex (on ex_u "j" "b"); CreateIndex (on ex_t "k" "c");
   CreateIndex (on ex_t "i" "b"); DropIndex ex_t (str "i"); DropIndex ex_u (str "i"); Restart; CreateIndex (on ex_u "i" "a");
   CreateIndex (on ex_t2 "x" "a"); CreateColl ex_t2; Restart; CreateColl (str "db3", str "v"); DropColl (str "db3", str "v"); Restart].
Example C92_example : fair nothing ex_history = true /\
  snd (expect_all nothing ex_history) = [Done; Done; Done; Done; Done; Refused; Done; Refused; Done; Done; Refused; Done; Done; Done; Done; Done] /\
  expected (fst (expect_all nothing ex_history)) ex_t = Some [(str "k", [KStr (str "c")])] /\
  expected (fst (expect_all nothing ex_history)) ex_u = Some [(str "j", [KStr (str "b")]); (str "i", [KStr (str "a")])] /\
  expected (fst (expect_all nothing ex_history)) ex_t2 = Some [].
Proof. vm_compute. repeat split; reflexivity. Qed.

(** The name of an index of another collection is refused, yet the index is there: nothing was put in it and nothing of it
    is on disk. *)
Theorem C92_shared_name_refuted : exists s,
  run start [CreateColl ex_t; CreateColl ex_u; CreateIndex (on ex_t "i" "a"); CreateIndex (on ex_u "i" "b")] = Ok (s, [Done; Done; Done; Refused]) /\
  seen s ex_u = Some [(str "i", [KStr (str "b")])] /\
  (exists x, context_of s ex_u = Some x /\ map ondisk (indexes x) = [false]) /\
  exists s', step s Restart = Ok (s', Done) /\ seen s' ex_u = Some [].
Proof.
  eexists. split; [vm_compute; reflexivity|]. split; [vm_compute; reflexivity|]. split; [eexists; split; [vm_compute; reflexivity|vm_compute; reflexivity]|].
  eexists. split; [vm_compute; reflexivity|vm_compute; reflexivity].
Qed.
Print Assumptions C92_shared_name_refuted.

(** A collection that has an index, or had one, cannot be dropped: its agent is asked for the name of the collection after
    the collection was freed. *)
Theorem C92_drop_refuted :
  run start [CreateColl ex_t; CreateIndex (on ex_t "i" "a"); DropColl ex_t] = Err UB /\
  run start [CreateColl ex_t; CreateIndex (on ex_t "i" "a"); DropIndex ex_t (str "i"); DropColl ex_t] = Err UB.
Proof. split; vm_compute; reflexivity. Qed.
Print Assumptions C92_drop_refuted.

(** Dropping a collection takes the indexes of the collection of that name in another database: after a restart they are
    gone, and creating one anew before is undefined. *)
Theorem C92_other_database_refuted : exists s,
  run start [CreateColl ex_t; CreateColl ex_t2; CreateIndex (on ex_t2 "i" "a"); DropColl ex_t] = Ok (s, [Done; Done; Done; Done]) /\
  seen s ex_t2 = Some [(str "i", [KStr (str "a")])] /\ read_file (file s) = Ok [] /\
  (exists s', step s Restart = Ok (s', Done) /\ seen s' ex_t2 = Some []) /\
  step s (CreateIndex (on ex_t2 "i" "a")) = Err UB.
Proof.
  eexists. split; [vm_compute; reflexivity|]. split; [vm_compute; reflexivity|]. split; [vm_compute; reflexivity|].
  split; [eexists; split; [vm_compute; reflexivity|vm_compute; reflexivity]|vm_compute; reflexivity].
Qed.
Print Assumptions C92_other_database_refuted.

(** * C93: the file of definitions holds the definition of each index, once, whatever happens *)
(** Without a restart. *)
Theorem C93_partial : forall l, fair nothing l = true -> no_start l = true ->
  exists s, run start l = Ok (s, snd (expect_all nothing l)) /\ read_file (file s) = Ok (vindexes (fst (expect_all nothing l))).
Proof. exact file_exact. Qed.
Print Assumptions C93_partial.

(** Every restart writes all definitions once more; the indexes stay the same. *)
Theorem C93_restarts : forall l k, fair nothing l = true -> no_start l = true ->
  exists s, run start (l ++ repeat Restart k) = Ok (s, snd (expect_all nothing l) ++ repeat Done k) /\
    read_file (file s) = Ok (concat (repeat (vindexes (fst (expect_all nothing l))) (S k))) /\ forall c, seen s c = expected (fst (expect_all nothing l)) c.
Proof. exact file_grows. Qed.
Print Assumptions C93_restarts.

Definition ex_two : list op := [CreateColl ex_t; CreateIndex (on ex_t "i" "a"); CreateIndex (on ex_t "h" "a"); CreateIndex (on ex_t "j" "b"); DropIndex ex_t (str "h")].
Example C93_example : fair nothing ex_two = true /\ no_start ex_two = true /\ vindexes (fst (expect_all nothing ex_two)) = [on ex_t "i" "a"; on ex_t "j" "b"].
Proof. vm_compute. repeat split; reflexivity. Qed.

Theorem C93_restart_refuted : exists s, run start (ex_two ++ [Restart]) = Ok (s, [Done; Done; Done; Done; Done; Done]) /\
  read_file (file s) = Ok [on ex_t "i" "a"; on ex_t "j" "b"; on ex_t "i" "a"; on ex_t "j" "b"].
Proof. eexists. split; [vm_compute; reflexivity|vm_compute; reflexivity]. Qed.
Print Assumptions C93_restart_refuted.

(** A crash between the two writes of a new definition leaves a file that cannot be read: the start is undefined. *)
Theorem C93_crash_create_refuted : exists s f, run start ex_two = Ok (s, [Done; Done; Done; Done; Done]) /\
  (exists l, crash_create (file s) (on ex_t "k" "a") = Ok l /\ In f l) /\ read_file f = Err UB /\ restart (with_file s f) = Err UB.
Proof.
  eexists. eexists. split; [vm_compute; reflexivity|]. split; [|split].
  - eexists. split; [vm_compute; reflexivity|]. right. left. reflexivity.
  - vm_compute. reflexivity.
  - vm_compute. reflexivity.
Qed.
Print Assumptions C93_crash_create_refuted.

(** A crash while an index is dropped can lose all the others. *)
Theorem C93_crash_drop_refuted : exists s f, run start ex_two = Ok (s, [Done; Done; Done; Done; Done]) /\
  (exists l, crash_drop (file s) (str "i") = Ok l /\ In f l) /\ read_file f = Ok [] /\
  exists s', restart (with_file s f) = Ok s' /\ seen s' ex_t = Some [].
Proof.
  eexists. exists []. split; [vm_compute; reflexivity|]. split; [|split].
  - eexists. split; [vm_compute; reflexivity|]. right. left. reflexivity.
  - vm_compute. reflexivity.
  - eexists. split; [vm_compute; reflexivity|vm_compute; reflexivity].
Qed.
Print Assumptions C93_crash_drop_refuted.
