(** C102: statements of several sessions on databases and collections. *)
From Verif Require Import Bytes Outcome DdlModel DdlSpec DdlProofs.
From Coq Require Import Permutation.
Local Open Scope N_scope.

(** However the statements of the sessions interleave with the work of the executor and of the log, they are answered as if they
    were executed one after the other in the order in which they arrived, as long as no session sends a statement while one that
    creates or drops the same thing is not answered, collections are created in databases that are there and databases are dropped
    when they have no collections. *)
Theorem C102_partial : forall es, polite start nothing es ->
  exists st, run start es = Ok st /\
    Permutation (answers st ++ map (fun m => (m, Good)) (in_flight st)) (snd (serial nothing (sends es))) /\
    (in_flight st = [] -> agrees st (fst (serial nothing (sends es)))) /\ distinct st.
Proof. exact serve_all. Qed.
Print Assumptions C102_partial.

(** And every statement is answered in the end. *)
Theorem C102_answered_partial : forall es st, polite start nothing es -> run start es = Ok st ->
  exists st', run st (drain (length (in_flight st))) = Ok st' /\ in_flight st' = [].
Proof. exact answered. Qed.
Print Assumptions C102_answered_partial.

Local Ltac calm := repeat match goal with
  | |- _ /\ _ => split
  | |- True => exact I
  | |- _ => now left
  | H : False |- _ => destruct H
  | H : _ \/ _ |- _ => destruct H
  | H : _ /\ _ |- _ => destruct H
  | H : _ = ?x |- _ => is_var x; subst x
  | H : ?a = ?b |- _ => discriminate H
  | |- _ => intro
  end.
(** Two sessions with databases of their own, a collection dropped and made again, and a drop of an emptied database. *)
Definition example : list event :=
  [Send (1, CreateDb 7); Send (2, CreateDb 8); Finished; Logged; Send (1, Create 7 1); Finished; Logged; Finished; Logged;
   Send (2, Create 8 1); Send (1, Write 7 1); Send (1, Read 7 1); Execute; Finished; Execute; Finished; Finished; Logged; Logged;
   Send (1, Drop 7 1); Send (2, Write 8 1); Finished; Logged; Send (1, Create 7 1); Execute; Finished; Finished; Logged; Logged;
   Send (1, Drop 7 1); Finished; Logged; Send (1, Read 7 1); Send (1, DropDb 7); Finished; Send (2, Create 8 1)].
Example C102_case : polite start nothing example.
Proof. vm_compute. calm; right; now left. Qed.
Example C102_case_answers : exists st, run start example = Ok st /\ in_flight st = [] /\ length (answers st) = 13%nat /\
  cdbs st = [8] /\ ccolls st = [(8, 1)].
Proof. eexists. split; [vm_compute; reflexivity|]. repeat split. Qed.

(** Two sessions create the same collection at once: both are told that they did. *)
Theorem C102_race_refuted : exists es0 es st st' w a b,
  run start es0 = Ok st /\ in_flight st = [] /\ agrees st w /\
  run st es = Ok st' /\ sends es = [a; b] /\ in_flight st' = [] /\
  forall ms, Permutation [a; b] ms -> ~ Permutation (answers st') (answers st ++ snd (serial w ms)).
Proof. exact race. Qed.
Print Assumptions C102_race_refuted.

(** Two sessions drop the same collection at once: [at] throws in the dispatcher. *)
Theorem C102_twice_refuted : exists es, run start es = Err Throw.
Proof. exact twice. Qed.
Print Assumptions C102_twice_refuted.

(** A collection is dropped while a select on it waits for the executor: the executor uses the freed collection. *)
Theorem C102_dangling_refuted : exists es, run start es = Err UB.
Proof. exact dangling. Qed.
Print Assumptions C102_dangling_refuted.

(** A collection created in a database that is not there is said to be created; it is in memory and not in the catalogue. *)
Theorem C102_nowhere_refuted : exists es st, run start es = Ok st /\ in_flight st = [] /\
  answers st = [((1, Create 7 8), Good); ((1, Read 7 8), Missing)] /\
  snd (serial nothing (sends es)) = [((1, Create 7 8), Missing); ((1, Read 7 8), Missing)] /\
  ~ In (7, 8) (ccolls st) /\ In (7, 8) (map fst (memory st)).
Proof. exact nowhere. Qed.
Print Assumptions C102_nowhere_refuted.
