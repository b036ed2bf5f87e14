(** The execution of statements.  C98: every statement is answered once, after each operator of its plan ran once, children
    first.  C99: what a statement changed is sent to the disk, once. *)
From Verif Require Import Bytes Outcome ExecModel ExecSpec ExecProofs.
Require Import Permutation.
Local Open Scope nat_scope.

(** C98, any statements in sessions of their own, answers of the disk in any order.  Missing: a session with a second statement
    after CREATE or DROP INDEX, collections dropped, an operator that waits in another collection than its part is of, which
    the code gets wrong. *)
Theorem C98_partial : forall (dropped : N -> bool) (l : list input),
  NoDup (sessions l) -> (forall s p, In (Execute s p) l -> good dropped p = true) ->
  exists w, steps dropped start l = Ok w /\
    forall s p, In (Execute s p) l ->
      (waiting w s = true -> answers (seen w s) = []) /\
      (waiting w s = false -> exists es, seen w s = es ++ [Answer (root p)] /\ answers es = [] /\
         Permutation (ran es) (ids p) /\ children_first p (ran es)).
Proof. exact answered. Qed.

(** The disk needs to answer a finite number of times. *)
Theorem C98_ends : forall (dropped : N -> bool) (l : list input) (w : world),
  NoDup (sessions l) -> (forall s p, In (Execute s p) l -> good dropped p = true) -> steps dropped start l = Ok w ->
  exists k w', steps dropped w (repeat (Deliver 0) k) = Ok w' /\ pend w' = [].
Proof. exact finishes. Qed.

(** Two collections, 1 and 2; none is dropped. *)
Definition no_drop (c : N) : bool := false.
(** SELECT from a join of two scans through indexes on disk, sorted *)
Definition a_join : op :=
  Op 0 TRead false (Some 1%N) (Op 1 TOther false (Some 1%N) (Op 2 TRead false None (Op 3 TRead true (Some 1%N) Nil Nil)
    (Op 4 TOther false (Some 2%N) (Op 5 TRead true (Some 2%N) Nil Nil) Nil)) Nil) Nil.
Definition a_delete : op := Op 0 TRemove false (Some 1%N) (Op 1 TRead false (Some 1%N) Nil Nil) Nil.
Definition a_slow_delete : op := Op 0 TRemove false (Some 1%N) (Op 1 TRead true (Some 1%N) Nil Nil) Nil.
Definition an_index : op := Op 0 TAddIndex false (Some 1%N) Nil Nil.
Definition mixed : list input :=
  [Execute 10 a_join; Execute 11 an_index; Execute 12 a_slow_delete; Execute 13 a_delete; Deliver 1; Deliver 1; Deliver 0; Deliver 0].
Example mixed_good : forall s p, In (Execute s p) mixed -> good no_drop p = true.
Proof. intros s p H. cbn in H. repeat destruct H as [H|H]; try discriminate H; try (injection H as <- <-; vm_compute; reflexivity). destruct H. Qed.
Example mixed_sessions : NoDup (sessions mixed).
Proof. vm_compute. repeat constructor; cbn; intros H; repeat destruct H as [H|H]; try discriminate H; destruct H. Qed.
Example mixed_run : exists w, steps no_drop start mixed = Ok w /\
  seen w 10 = [Asked 5; Ran 5; Ran 4; Asked 3; Ran 3; Ran 2; Ran 1; Ran 0; Answer (Some 0)] /\
  seen w 11 = [Ran 0; Answer (Some 0)] /\ seen w 12 = [Asked 1; Ran 1; Ran 0; Answer (Some 0)] /\
  seen w 13 = [Ran 1; Ran 0; Wrote; Answer (Some 0)].
Proof. eexists. split; [vm_compute; reflexivity|]. split; [reflexivity|]. split; [reflexivity|]. split; reflexivity. Qed.

(** After CREATE INDEX was answered, the next statement of its session, whatever it is, does nothing and gets no answer, and
    nothing is pending. *)
Theorem C98_after_index_refuted : forall (dropped : N -> bool) (s : N) (i : nat) (c : option N) (p : op),
  match c with Some k => dropped k = false | None => True end -> p <> Nil -> fit dropped p = true ->
  exists w, steps dropped start [Execute s (Op i TAddIndex false c Nil Nil); Deliver 0; Execute s p] = Ok w /\
    seen w s = [Ran i; Answer (Some i)] /\ pend w = [] /\ clients w s = true.
Proof. exact second_statement. Qed.
Example after_index_case : fit no_drop a_join = true /\ a_join <> Nil.
Proof. split; [reflexivity | discriminate]. Qed.

(** A statement on a collection that was dropped ends in an exception in the executor. *)
Theorem C98_dropped_refuted : forall (dropped : N -> bool) s i t a c l r,
  dropped c = true -> spine (Op i t a (Some c) l r) = Nil -> steps dropped start [Execute s (Op i t a (Some c) l r)] = Err Throw.
Proof. exact on_dropped. Qed.
Example dropped_case : spine (Op 0 TRemove false (Some 1%N) (Op 1 TRead false (Some 1%N) Nil Nil) Nil) = Nil.
Proof. reflexivity. Qed.

(** INSERT INTO a SELECT FROM b, through an index on disk of b: a suspended plan is looked for in b and there is none. *)
Theorem C98_insert_select_refuted : forall (dropped : N -> bool) s a b, a <> b -> dropped a = false ->
  (exists w, steps dropped start [Execute s (Op 0 TInsert false (Some a) (Op 1 TRead true (Some b) Nil Nil) Nil)] = Ok w) /\
  steps dropped start [Execute s (Op 0 TInsert false (Some a) (Op 1 TRead true (Some b) Nil Nil) Nil); Deliver 0] = Err UB.
Proof. exact insert_from_other. Qed.

(** C99, the part of the plan with the root does not wait for an index on disk; statements that only read send nothing. *)
Theorem C99_partial : forall (dropped : N -> bool) (l : list input),
  NoDup (sessions l) -> (forall s p, In (Execute s p) l -> good dropped p = true) ->
  exists w, steps dropped start l = Ok w /\
    forall s p, In (Execute s p) l -> waiting w s = false -> changes p = false \/ waits p = None ->
      writes (seen w s) = if changes p then 1 else 0.
Proof.
  intros d l ND GD. destruct (written d l ND GD) as (w & E & H). exists w. split; [exact E|]. intros s p I W C.
  rewrite (H s p I W). destruct C as [-> | ->]; [destruct (waits p); reflexivity | reflexivity].
Qed.
Example C99_case : In (Execute 13 a_delete) mixed /\ changes a_delete = true /\ waits a_delete = None.
Proof. split; [cbn; tauto | split; reflexivity]. Qed.

(** Whatever DELETE, UPDATE or INSERT found its rows through an index on disk: it is answered, and nothing is sent to the disk. *)
Theorem C99_refuted : forall (dropped : N -> bool) (l : list input),
  NoDup (sessions l) -> (forall s p, In (Execute s p) l -> good dropped p = true) ->
  exists w, steps dropped start l = Ok w /\
    forall s p, In (Execute s p) l -> waiting w s = false -> waits p <> None ->
      answers (seen w s) = [root p] /\ writes (seen w s) = 0.
Proof.
  intros d l ND GD. destruct (written d l ND GD) as (w & E & H), (answered d l ND GD) as (w' & E' & H').
  assert (w' = w) by congruence. subst w'. exists w. split; [exact E|]. intros s p I W C. split.
  - destruct (H' s p I) as (_ & A). destruct (A W) as (es & A1 & A2 & _). rewrite A1, answers_app, A2. reflexivity.
  - rewrite (H s p I W). destruct (waits p); [reflexivity | congruence].
Qed.
Example C99_refuted_case : In (Execute 12 a_slow_delete) mixed /\ changes a_slow_delete = true /\ waits a_slow_delete <> None.
Proof. split; [cbn; tauto | split; [reflexivity | discriminate]]. Qed.

Print Assumptions C98_partial.
Print Assumptions C98_ends.
Print Assumptions C98_after_index_refuted.
Print Assumptions C98_dropped_refuted.
Print Assumptions C98_insert_select_refuted.
Print Assumptions C99_partial.
Print Assumptions C99_refuted.
