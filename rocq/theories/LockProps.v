(** Property C48: locks. *)
From Verif Require Import LockModel LockProofs.
Local Open Scope Z_scope.

(** Whatever the number of threads and the interleaving, while one thread holds the exclusive lock no
    other thread holds it in any mode. *)
Theorem C48_exclusive_alone :
  forall n s i j p, steps (init n) s -> i <> j ->
  nth_error (threads s) i = Some InExcl -> nth_error (threads s) j = Some p -> p <> InExcl /\ p <> InShared.
Proof. exact exclusion. Qed.
Print Assumptions C48_exclusive_alone.

(** The reader count never overflows while there are at most 2^63-1 threads. *)
Theorem C48_counter_in_range :
  forall n s, Z.of_nat n <= LONG_MAX -> steps (init n) s -> min_long <= flag s <= LONG_MAX.
Proof. exact flag_range. Qed.
Print Assumptions C48_counter_in_range.

(** When nobody holds the lock a waiting writer can take it by its own steps, and when nobody holds it
    exclusively a waiting reader can. *)
Theorem C48_free_lock_can_be_taken :
  (forall n s pre p post, steps (init n) s -> threads s = pre ++ p :: post ->
     (p = LockStart \/ exists v, p = LockHave v) ->
     (forall q, In q (threads s) -> q <> InExcl /\ q <> InShared) ->
     steps s {| flag := min_long; threads := pre ++ InExcl :: post |}) /\
  (forall n s pre p post, steps (init n) s -> threads s = pre ++ p :: post ->
     (p = SharedStart \/ exists v, p = SharedHave v) ->
     (forall q, In q (threads s) -> q <> InExcl) ->
     steps s {| flag := flag s + 1; threads := pre ++ InShared :: post |}).
Proof. exact (conj lock_progress shared_progress). Qed.
Print Assumptions C48_free_lock_can_be_taken.

(** The plain spin lock: mutual exclusion and availability. *)
Theorem C48_spin_lock :
  (forall n s i j, ssteps (sinit n) s -> i <> j ->
     nth_error (sthreads s) i = Some SIn -> nth_error (sthreads s) j = Some SIn -> False) /\
  (forall n s pre post, ssteps (sinit n) s -> sthreads s = pre ++ SSpin :: post ->
     (forall q, In q (sthreads s) -> q <> SIn) ->
     ssteps s {| sflag := true; sthreads := pre ++ SIn :: post |}).
Proof. exact (conj spin_exclusion spin_progress). Qed.
Print Assumptions C48_spin_lock.

(** Upgrading is not atomic: between giving up its shared lock and taking the exclusive one, a thread
    can be overtaken by another writer. *)
Theorem C53_upgrade_lets_writer_in_refuted :
  exists s1 s2, steps (init 2) s1 /\ threads s1 = [InShared; LockHave 0] /\
    step s1 s2 /\ threads s2 = [LockStart; LockHave 0] /\
    steps s2 {| flag := min_long; threads := [LockStart; InExcl] |} /\
    steps {| flag := min_long; threads := [LockStart; InExcl] |} {| flag := min_long; threads := [InExcl; Out] |}.
Proof.
  exists {| flag := 1; threads := [InShared; LockHave 0] |}, {| flag := 0; threads := [LockStart; LockHave 0] |}.
  split.
  { eapply Steps_next with (t := {| flag := 0; threads := [SharedHave 0; LockHave 0] |}).
    2:{ apply (Step 0 [] (SharedHave 0) [LockHave 0] 1 InShared). apply T_shared_cas; reflexivity || discriminate. }
    eapply Steps_next with (t := {| flag := 0; threads := [SharedStart; LockHave 0] |}).
    2:{ apply (Step 0 [] SharedStart [LockHave 0] 0 (SharedHave 0)). constructor. }
    eapply Steps_next with (t := {| flag := 0; threads := [Out; LockHave 0] |}).
    2:{ apply (Step 0 [] Out [LockHave 0] 0 SharedStart). constructor. }
    eapply Steps_next with (t := {| flag := 0; threads := [Out; LockStart] |}).
    2:{ apply (Step 0 [Out] LockStart [] 0 (LockHave 0)). constructor. }
    eapply Steps_next; [constructor|]. apply (Step 0 [Out] Out [] 0 LockStart). constructor. }
  split; [reflexivity|].
  split. { apply (Step 1 [] InShared [LockHave 0] 0 LockStart). apply T_upgrade. }
  split; [reflexivity|].
  split. { apply steps_one. apply (Step 0 [LockStart] (LockHave 0) [] min_long InExcl). constructor. reflexivity. }
  eapply Steps_next with (t := {| flag := 0; threads := [LockHave 0; Out] |}).
  2:{ apply (Step 0 [] (LockHave 0) [Out] min_long InExcl). constructor. reflexivity. }
  eapply Steps_next with (t := {| flag := 0; threads := [LockStart; Out] |}).
  2:{ apply (Step 0 [] LockStart [Out] 0 (LockHave 0)). constructor. }
  apply steps_one. apply (Step min_long [LockStart] InExcl [] 0 Out). constructor.
Qed.
Print Assumptions C53_upgrade_lets_writer_in_refuted.

(** A reachable state with a writer inside and a reader and a writer waiting. *)
Example C48_case : exists s, steps (init 3) s /\ threads s = [InExcl; SharedStart; LockHave min_long].
Proof.
  exists {| flag := min_long; threads := [InExcl; SharedStart; LockHave min_long] |}. split; [|reflexivity].
  eapply Steps_next with (t := {| flag := min_long; threads := [InExcl; SharedStart; LockStart] |}).
  2:{ apply (Step min_long [InExcl; SharedStart] LockStart [] min_long (LockHave min_long)). constructor. }
  eapply Steps_next with (t := {| flag := min_long; threads := [InExcl; SharedStart; Out] |}).
  2:{ apply (Step min_long [InExcl; SharedStart] Out [] min_long LockStart). constructor. }
  eapply Steps_next with (t := {| flag := min_long; threads := [InExcl; Out; Out] |}).
  2:{ apply (Step min_long [InExcl] Out [Out] min_long SharedStart). constructor. }
  eapply Steps_next with (t := {| flag := 0; threads := [LockHave 0; Out; Out] |}).
  2:{ apply (Step 0 [] (LockHave 0) [Out; Out] min_long InExcl). constructor. reflexivity. }
  eapply Steps_next with (t := {| flag := 0; threads := [LockStart; Out; Out] |}).
  2:{ apply (Step 0 [] LockStart [Out; Out] 0 (LockHave 0)). constructor. }
  apply steps_one. apply (Step 0 [] Out [Out; Out] 0 LockStart). constructor.
Qed.
