(** Transactions on the metadata of tables: the theorems. *)
From Verif Require Import Bytes Outcome ByteOrd OMap SDiffModel SDiffSpec TrieModel CSchemaModel CatModel CatSpec TxModel TxSpec TxProofs TxProofs2.

(** C36.  Any history of calls on the catalogue and on any number of transactions, interleaved, in which
    no call throws and savepoints are used in order, leaves exactly the tables of the specification: a
    commit applies all the changes that were not rolled back, at once, to the table as it then is, or
    nothing if it reports an error; nothing else a transaction does changes a table; and calls report
    errors exactly where they should.  Missing: savepoint names used again or after they were discarded,
    and commits that throw. *)
Theorem C36_history_partial :
  forall es s xs, run start es = Ok (s, xs) -> Forall smooth xs -> orderly astart es ->
    Forall2 meets xs (snd (arun astart es)) /\
    let w := a_world (fst (arun astart es)) in
    (forall p, ns_exists (s_cat s) p = there w p) /\
    (forall p n m, t_at w Regular p n = Some m -> get_table_schema (s_cat s) p n = Ok m) /\
    (forall k p n, table_exists k (s_cat s) p n = match t_at w k p n with Some _ => true | None => false end).
Proof. exact c36_history. Qed.
Print Assumptions C36_history_partial.

(** C36.  A transaction of tidy changes (as for C35) on a table, from beginning to commit, runs without
    an error and the table then has exactly the columns described. *)
Theorem C36_commit_partial :
  forall es s xs p n m os,
    run start es = Ok (s, xs) -> Forall smooth xs -> orderly astart es ->
    t_at (a_world (fst (arun astart es))) Regular p n = Some m ->
    sound (s_cols (m_schema m)) -> tidy (s_cols (m_schema m)) [] os = true -> os <> [] ->
    let i := length (s_open s) in
    exists s' ys m', run s (Begin p n :: map (fun o => Do i (Change o)) os ++ [Commit i]) = Ok (s', ys) /\
      Forall (fun y => y = RErr None) ys /\ get_table_schema (s_cat s') p n = Ok m' /\
      Forall2 same (s_cols (m_schema m')) (describe (map view (s_cols (m_schema m))) os) /\
      s_pk (m_schema m') = s_pk (m_schema m) /\ m_desc m' = m_desc m.
Proof. exact c36_tidy. Qed.
Print Assumptions C36_commit_partial.

(** C36.  Only calls on the catalogue and commits change the catalogue, in any state. *)
Theorem C36_quiet :
  forall s e s' x, step s e = Ok (s', x) -> match e with Cat _ | Commit _ => True | _ => s_cat s' = s_cat s end.
Proof. exact quiet. Qed.
Print Assumptions C36_quiet.

(** C36.  A commit that does not report success changes nothing, in any state. *)
Theorem C36_failed :
  forall s i s' r, step s (Commit i) = Ok (s', r) -> r <> RErr None -> s_cat s' = s_cat s.
Proof. exact c36_failed. Qed.
Print Assumptions C36_failed.

(** C36.  A commit that does not throw and an abort finish the transaction. *)
Theorem C36_finishes :
  forall s e i s' r b, nth_error (s_open s) i = Some b -> step s e = Ok (s', r) -> e = Commit i \/ e = Abort i -> r <> RThrow ->
    exists b', nth_error (s_open s') i = Some b' /\ done b'.
Proof. exact c36_finishes. Qed.
Print Assumptions C36_finishes.

(** C36.  After any history at all, every call on a finished transaction reports an error, changes no
    table and leaves it finished. *)
Theorem C36_finished :
  forall es s xs i b, run start es = Ok (s, xs) -> nth_error (s_open s) i = Some b -> done b ->
    forall e, (exists o, e = Do i o) \/ e = Commit i ->
    exists s' m b', step s e = Ok (s', RErr (Some m)) /\ s_cat s' = s_cat s /\ nth_error (s_open s') i = Some b' /\ done b'.
Proof. exact c36_finished. Qed.
Print Assumptions C36_finished.

Definition col (n : string) (k : N) (id : N) : column := (SDiffModel.Ty k (Some (Ext 0 (str n))), Desc id false []).
Definition INT : N := 14. Definition BIG : N := 15.
Definition table : meta := TxModel.Meta (Schema [col "a" INT 1; col "b" BIG 2] [1%N] None 2) (str "old").
Notation db := (str "db"). Notation tn := (str "t").
Definition setup : list event := [Cat (NsCreate [db; str "sub"]); Cat (TCreate Regular [db] tn table)].
Definition ok_cat := RCat Done NoMistake.
Definition look (s : state) : option (list bstr * bstr * option smistake) :=
  match get_table_schema (s_cat s) [db] tn with
  | Ok m => Some (map name_of (s_cols (m_schema m)), m_desc m, s_err (m_schema m))
  | Err _ => None
  end.

(** C36.  A commit of two added columns reports success and leaves a table whose schema is in error. *)
Theorem C36_invalid_refuted :
  exists s xs, run start (setup ++ [Begin [db] tn; Do 0 (Change (Add (str "x") (SDiffModel.Ty INT None) false []));
                                    Do 0 (Change (Add (str "y") (SDiffModel.Ty INT None) false [])); Commit 0]) = Ok (s, xs) /\
    nth_error xs 5 = Some (RErr None) /\
    look s = Some ([str "a"; str "b"; str "x"; str "y"], str "old", Some DuplicateColumn).
Proof. eexists. eexists. split; [vm_compute; reflexivity|]. split; vm_compute; reflexivity. Qed.
Print Assumptions C36_invalid_refuted.

(** C36.  If the namespace is gone, the commit throws and does not finish the transaction; committed
    again, it reports success though nothing was applied. *)
Theorem C36_throw_refuted :
  exists s xs, run start (setup ++ [Begin [db] tn; Do 0 (Change (SetDoc (str "a") (str "d"))); Cat (NsDrop [db]); Commit 0; Commit 0]) = Ok (s, xs) /\
    skipn 4 xs = [ok_cat; RThrow; RErr None] /\ ns_exists (s_cat s) [db] = false.
Proof. eexists. eexists. split; [vm_compute; reflexivity|]. split; vm_compute; reflexivity. Qed.
Print Assumptions C36_throw_refuted.

(** C36.  Of two transactions open together, the second commits with success although the column it
    documents was renamed by the first: its change is lost. *)
Theorem C36_concurrent_refuted :
  exists s xs m, run start (setup ++ [Begin [db] tn; Begin [db] tn; Do 0 (Change (Rename (str "a") (str "c")));
                                    Do 1 (Change (SetDoc (str "a") (str "d"))); Commit 0; Commit 1]) = Ok (s, xs) /\
    skipn 6 xs = [RErr None; RErr None] /\ get_table_schema (s_cat s) [db] tn = Ok m /\
    map (fun c => (name_of c, d_doc (snd c))) (s_cols (m_schema m)) = [(str "c", []); (str "b", [])].
Proof. eexists. eexists. eexists. split; [vm_compute; reflexivity|]. split; [vm_compute; reflexivity|]. split; vm_compute; reflexivity. Qed.
Print Assumptions C36_concurrent_refuted.

(** C36.  Rolling back to a savepoint whose name was used twice discards changes made before it. *)
Theorem C36_reused_refuted :
  exists s xs, run start (setup ++ [Begin [db] tn; Do 0 (Save (str "s")); Do 0 (Describe (str "one")); Do 0 (Save (str "s"));
                                    Do 0 (Describe (str "two")); Do 0 (Back (str "s")); Commit 0]) = Ok (s, xs) /\
    nth_error xs 8 = Some (RErr None) /\ look s = Some ([str "a"; str "b"], str "old", None).
Proof. eexists. eexists. split; [vm_compute; reflexivity|]. split; vm_compute; reflexivity. Qed.
Print Assumptions C36_reused_refuted.

(** C36.  Changes that a rollback discarded come back by rolling back to a savepoint made after them. *)
Theorem C36_discarded_refuted :
  exists s xs, run start (setup ++ [Begin [db] tn; Do 0 (Save (str "s")); Do 0 (Describe (str "one")); Do 0 (Save (str "r"));
                                    Do 0 (Back (str "s")); Do 0 (Back (str "r")); Commit 0]) = Ok (s, xs) /\
    nth_error xs 8 = Some (RErr None) /\ look s = Some ([str "a"; str "b"], str "one", None).
Proof. eexists. eexists. split; [vm_compute; reflexivity|]. split; vm_compute; reflexivity. Qed.
Print Assumptions C36_discarded_refuted.

(** The hypotheses are met by a history of three transactions with savepoints, an abort and a commit
    of a table that is gone. *)
Definition history : list event :=
  setup ++ [Begin [db] tn; Begin [db] tn; Begin [db] (str "none"); Begin [db] tn;
   Do 0 (Change (Rename (str "a") (str "c"))); Do 0 (Save (str "s")); Do 0 (Describe (str "gone")); Do 0 (Back (str "s"));
   Do 1 (Change (SetDoc (str "b") (str "doc"))); Do 3 (Describe (str "three")); Do 2 (Describe (str "no"));
   Abort 1; Commit 0; Commit 2; Do 0 (Describe (str "late")); Commit 0;
   Cat (TRename Regular [db] tn (str "u")); Commit 3; Do 1 (Back (str "q"))].
Example C36_history_runs : exists s xs, run start history = Ok (s, xs) /\ Forall smooth xs /\ orderly astart history /\
  skipn 13 xs = [RErr None; RErr None; RErr (Some CommitFailed); RErr (Some Inactive); RErr (Some Finalized); ok_cat;
                 RErr (Some CommitFailed); RErr (Some Inactive)] /\
  (exists m, get_table_schema (s_cat s) [db] (str "u") = Ok m /\ map name_of (s_cols (m_schema m)) = [str "c"; str "b"] /\ m_desc m = str "old").
Proof.
  eexists. eexists. split; [vm_compute; reflexivity|]. split; [repeat constructor|]. split.
  - apply guards_orderly. match goal with |- Forall _ ?g => let v := eval vm_compute in g in change g with v end.
    repeat (apply Forall_cons; [exact I || (intros []) || idtac|]); try apply Forall_nil.
    all: intros l ss HE; vm_compute in HE; injection HE as <- <-; left; reflexivity.
  - split; [vm_compute; reflexivity|]. eexists. split; [vm_compute; reflexivity|]. split; vm_compute; reflexivity.
Qed.
