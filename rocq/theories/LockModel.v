(** Model of core/spinlock/spinlock.cpp: any number of threads, one atomic operation per step, in any
    order.  Each thread is at a point of one of the lock functions, or holds the lock, or is outside.
    A thread only calls unlock/unlock_shared while it holds the lock in that mode (the RAII guards of
    spinlock.hpp).  The atomics are taken as sequentially consistent (the default order for
    shared_spinlock; spin_lock uses acquire/release).  cas_weak may fail spuriously. *)
From Coq Require Export ZArith List Lia Bool.
Export ListNotations.
Local Open Scope Z_scope.

Definition LONG_MAX : Z := 2 ^ 63 - 1.
Definition min_long : Z := - 2 ^ 63.

Inductive pc :=
| Out                       (* outside every lock function, holding nothing *)
| LockStart | LockHave (v : Z)      (* lock(): before the first load; after a load of v *)
| TryStart | TryHave (v : Z)        (* try_lock() *)
| SharedStart | SharedHave (v : Z)  (* lock_shared(), also lock_upgrade() *)
| STryStart | STryHave (v : Z)      (* try_lock_shared() *)
| InExcl                    (* lock()/try_lock() returned, before unlock() *)
| InShared.                 (* lock_shared()/try_lock_shared()/lock_upgrade() returned *)

Record state := { flag : Z; threads : list pc }.

(** the effect of one step of one thread: flag before, pc before, flag after, pc after *)
Inductive tstep : Z -> pc -> Z -> pc -> Prop :=
(* spinlock.cpp:22-32 lock *)
| T_call_lock f : tstep f Out f LockStart
| T_lock_load f : tstep f LockStart f (LockHave f)
| T_lock_reload f v : v <> 0 -> tstep f (LockHave v) f (LockHave f)
| T_lock_cas f : f = 0 -> tstep f (LockHave 0) min_long InExcl
| T_lock_cas_fail f : tstep f (LockHave 0) f (LockHave f)
(* spinlock.cpp:50-53 try_lock *)
| T_call_try f : tstep f Out f TryStart
| T_try_load f : tstep f TryStart f (TryHave f)
| T_try_no f v : v <> 0 -> tstep f (TryHave v) f Out
| T_try_cas f : f = 0 -> tstep f (TryHave 0) min_long InExcl
| T_try_cas_fail f : tstep f (TryHave 0) f Out
(* spinlock.cpp:48 unlock *)
| T_unlock f : tstep f InExcl 0 Out
(* spinlock.cpp:55-66 lock_shared, 34 lock_upgrade *)
| T_call_shared f : tstep f Out f SharedStart
| T_shared_load f : tstep f SharedStart f (SharedHave f)
| T_shared_reload f v : v < 0 -> tstep f (SharedHave v) f (SharedHave f)
| T_shared_cas f v : 0 <= v -> f = v -> tstep f (SharedHave v) (v + 1) InShared
| T_shared_cas_fail f v : 0 <= v -> tstep f (SharedHave v) f (SharedHave f)
(* spinlock.cpp:70-73 try_lock_shared *)
| T_call_stry f : tstep f Out f STryStart
| T_stry_load f : tstep f STryStart f (STryHave f)
| T_stry_no f v : v < 0 -> tstep f (STryHave v) f Out
| T_stry_cas f v : 0 <= v -> f = v -> tstep f (STryHave v) (v + 1) InShared
| T_stry_cas_fail f v : 0 <= v -> tstep f (STryHave v) f Out
(* spinlock.cpp:68 unlock_shared, 36 unlock_upgrade *)
| T_unlock_shared f : tstep f InShared (f - 1) Out
(* spinlock.cpp:38-41 unlock_upgrade_and_lock, 43-46 unlock_and_lock_upgrade: the release, then the
   first step of the other function *)
| T_upgrade f : tstep f InShared (f - 1) LockStart
| T_downgrade f : tstep f InExcl 0 SharedStart.

Inductive step : state -> state -> Prop :=
| Step f pre p post f' p' : tstep f p f' p' ->
    step {| flag := f; threads := pre ++ p :: post |} {| flag := f'; threads := pre ++ p' :: post |}.

Inductive steps : state -> state -> Prop :=
| Steps_refl s : steps s s
| Steps_next s t u : steps s t -> step t u -> steps s u.

(** the constructor (spinlock.cpp:19): flag 0; [n] threads, none inside *)
Definition init (n : nat) : state := {| flag := 0; threads := repeat Out n |}.

(** spin_lock (spinlock.cpp:7-10): test_and_set until it was clear; clear *)
Inductive spc := SOut | SSpin | SIn.
Record sstate := { sflag : bool; sthreads : list spc }.
Inductive ststep : bool -> spc -> bool -> spc -> Prop :=
| S_call f : ststep f SOut f SSpin
| S_busy : ststep true SSpin true SSpin
| S_get : ststep false SSpin true SIn
| S_unlock f : ststep f SIn false SOut.
Inductive sstep : sstate -> sstate -> Prop :=
| SStep f pre p post f' p' : ststep f p f' p' ->
    sstep {| sflag := f; sthreads := pre ++ p :: post |} {| sflag := f'; sthreads := pre ++ p' :: post |}.
Inductive ssteps : sstate -> sstate -> Prop :=
| SSteps_refl s : ssteps s s
| SSteps_next s t u : ssteps s t -> sstep t u -> ssteps s u.
Definition sinit (n : nat) : sstate := {| sflag := false; sthreads := repeat SOut n |}.
