(** C37-C39: row versions *)
From Verif Require Import Bytes Outcome VersionModel VersionSpec VersionProofs.
Local Open Scope nat_scope.

Theorem C37_visibility n0 ops : legal_all (a0 n0) ops ->
  exists m, mrun (a0 n0) [] ops = Ok m /\ let a := arun (a0 n0) ops in
    forall x, txn_ok a x ->
      (forall r, r < total a -> fetch x m r = visible x (row a r)) /\
      (forall i n, n <= CAP -> i * CAP + n <= total a -> select x m i n = filter (fun p => visible x (row a (i * CAP + p))) (seq 0 n)).
Proof. exact (visibility n0 ops). Qed.
Print Assumptions C37_visibility.
(** rows 0 and 3 are deleted at time 5, rows 2..4 exist from time 4 on, row 5 is only seen by its transaction *)
Example C37_case : legal_all (a0 2) history /\ exists m, mrun (a0 2) [] history = Ok m /\
  select {| tid := T1; start_time := 5 |} m 0 6 = [0; 1; 2; 3; 4] /\ select {| tid := T1; start_time := 6 |} m 0 6 = [1; 2; 4] /\
  select {| tid := T3; start_time := 4 |} m 0 6 = [0; 1; 5].
Proof.
  split; [exact history_legal|]. eexists. split; [vm_compute; reflexivity|]. split; [vm_compute; reflexivity|]. split; vm_compute; reflexivity.
Qed.

Theorem C37_committed_deletes n0 ops m count : legal_all (a0 n0) ops -> mrun (a0 n0) [] ops = Ok m -> let a := arun (a0 n0) ops in count <= total a ->
  committed_deleted_count m count =
  length (filter (fun r => match a_del (row a r) with Some (Committed _) => true | _ => false end) (seq 0 count)).
Proof. exact (deleted_count_ok n0 ops m count). Qed.
Print Assumptions C37_committed_deletes.
Example C37_count_case : exists m, mrun (a0 2) [] history = Ok m /\ committed_deleted_count m 6 = 2.
Proof. eexists. split; [vm_compute; reflexivity|]. vm_compute. reflexivity. Qed.

(** Missing: vectors whose first row is young while all others are old ([legal]), and observers that started exactly at the bound. *)
Theorem C38_cleanup_partial n0 ops m l s n : legal_all (a0 n0) ops -> mrun (a0 n0) [] ops = Ok m -> let a := arun (a0 n0) ops in legal a (Cleanup l s n) ->
  exists m', cleanup_append m l s n = Ok m' /\
    forall x, running_id (tid x) -> (l < start_time x <= TRANSACTION_ID_START)%N ->
      (forall r, r < total a -> fetch x m' r = fetch x m r) /\
      (forall i k, k <= CAP -> i * CAP + k <= total a -> select x m' i k = select x m i k).
Proof. exact (cleanup_keeps n0 ops m l s n). Qed.
Print Assumptions C38_cleanup_partial.
(** a vector that is really dropped *)
Example C38_case : legal_all (a0 0) whole_vector /\ exists m m', mrun (a0 0) [] whole_vector = Ok m /\ cleanup_append m 10 0 CAP = Ok m' /\
  get_chunk m 0 <> None /\ get_chunk m' 0 = None.
Proof.
  split; [exact whole_vector_legal|]. eexists. eexists. split; [vm_compute; reflexivity|]. split; [vm_compute; reflexivity|].
  split; [vm_compute; discriminate|]. vm_compute. reflexivity.
Qed.
(** Row 0 is added by a transaction that never commits, the other 1023 rows of its vector are committed:
    after the cleanup everybody sees row 0. *)
Theorem C38_first_row_refuted : legal_all (a0 0) first_row /\ exists m m', mrun (a0 0) [] first_row = Ok m /\ cleanup_append m 10 0 CAP = Ok m' /\
  fetch {| tid := T3; start_time := 20 |} m 0 = false /\ fetch {| tid := T3; start_time := 20 |} m' 0 = true.
Proof. exact (conj first_row_legal cleanup_first_row). Qed.
Print Assumptions C38_first_row_refuted.
(** An observer that started at the cleanup bound sees more afterwards. *)
Theorem C38_bound_refuted : legal_all (a0 0) whole_vector /\ exists m m', mrun (a0 0) [] whole_vector = Ok m /\ cleanup_append m 10 0 CAP = Ok m' /\
  fetch {| tid := T3; start_time := 10 |} m 0 = false /\ fetch {| tid := T3; start_time := 10 |} m' 0 = true.
Proof. exact (conj whole_vector_legal cleanup_boundary). Qed.
Print Assumptions C38_bound_refuted.

(** Missing: "nothing is changed by the failed call" holds for the rows that were not listed only. *)
Theorem C39_conflict_partial n0 ops m i t rows p w : legal_all (a0 n0) ops -> mrun (a0 n0) [] ops = Ok m -> let a := arun (a0 n0) ops in
  running_id t -> (forall q, In q rows -> q < CAP /\ i * CAP + q < total a) ->
  In p rows -> a_del (row a (i * CAP + p)) = Some w -> w <> Running t ->
  exists m', delete_rows m i t rows = Ok (m', None) /\
    forall x r, txn_ok a x -> r < total a -> in_vector i rows r = false -> fetch x m' r = visible x (row a r).
Proof. exact (conflict n0 ops m i t rows p w). Qed.
Print Assumptions C39_conflict_partial.
Theorem C39_count n0 ops m i t rows : legal_all (a0 n0) ops -> mrun (a0 n0) [] ops = Ok m -> let a := arun (a0 n0) ops in legal a (Delete i t rows) ->
  exists m', delete_rows m i t rows =
    Ok (m', Some (length (filter (fun p => existsb (Nat.eqb p) rows && match a_del (row a (i * CAP + p)) with None => true | _ => false end) (seq 0 CAP)))).
Proof. exact (delete_count n0 ops m i t rows). Qed.
Print Assumptions C39_count.
Example C39_case : exists m m', mrun (a0 2) [] one_deleted = Ok m /\ a_del (row (arun (a0 2) one_deleted) 1) = Some (Running T1) /\
  delete_rows m 0 T1 [0; 0; 1] = Ok (m', Some 1).
Proof. eexists. eexists. split; [vm_compute; reflexivity|]. split; [vm_compute; reflexivity|]. vm_compute. reflexivity. Qed.
(** T2 deletes rows 0 and 1, and 1 is taken: the call fails, but T2 no longer sees row 0. *)
Theorem C39_unchanged_refuted : legal_all (a0 2) one_deleted /\ exists m m', mrun (a0 2) [] one_deleted = Ok m /\ delete_rows m 0 T2 [0; 1] = Ok (m', None) /\
  fetch {| tid := T2; start_time := 7 |} m 0 = true /\ fetch {| tid := T2; start_time := 7 |} m' 0 = false.
Proof. exact (conj one_deleted_legal failed_delete_marks). Qed.
Print Assumptions C39_unchanged_refuted.
(** T1 adds a row, deletes it and is rolled back; T2's row stored in its place cannot be deleted by T2. *)
Theorem C39_stale_mark_refuted : exists m, mrun (a0 1) [] [Append T1 1; Delete 0 T1 [1]; Revert 1; Append T2 1] = Ok m /\
  a_del (row (arun (a0 1) [Append T1 1; Delete 0 T1 [1]; Revert 1; Append T2 1]) 1) = None /\
  exists m', delete_rows m 0 T2 [1] = Ok (m', None).
Proof. exact stale_mark. Qed.
Print Assumptions C39_stale_mark_refuted.
