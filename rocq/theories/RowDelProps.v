(** C56: deleting rows of a table *)
From Verif Require Import Bytes Outcome VersionModel RowDelModel RowDelSpec RowDelProofs.
Local Open Scope nat_scope.

(** Whatever lists were deleted before, with or without errors, a scan returns exactly the rows not deleted;
    [effects] says which those are.  The bound is that of the 64-bit version number.
    Missing: a failed call may have deleted some of its rows. *)
Theorem C56_scan_partial n calls g os : (1 + N.of_nat (length (concat calls)) < NOT_DELETED_ID)%N -> rg_run (fresh n) calls = Ok (g, os) ->
  exists d, effects (fun _ => false) calls os d /\ forall i k, k <= CAP -> rg_select g i k = filter (fun p => negb (d (i * CAP + p))) (seq 0 k).
Proof. exact (deletes n calls g os). Qed.
Print Assumptions C56_scan_partial.
Example C56_case : exists g, rg_run (fresh 2000) [[5; 1500; 7; 7]; [6; 5]; [1501]] = Ok (g, [Some 3; None; Some 1]) /\
  rg_select g 0 9 = [0; 1; 2; 3; 4; 8] /\ rg_select g 1 3 = [0; 1; 2].
Proof. eexists. split; [vm_compute; reflexivity|]. split; vm_compute; reflexivity. Qed.

(** Deleting distinct rows that no earlier call named always succeeds and reports their number. *)
Theorem C56_live_rows n calls g os ids : (1 + N.of_nat (length (concat calls) + length ids) < NOT_DELETED_ID)%N -> rg_run (fresh n) calls = Ok (g, os) ->
  Forall (fun r => r < n) ids -> NoDup ids -> (forall r, In r ids -> ~ In r (concat calls)) ->
  exists g', rg_delete g ids = Ok (g', Some (length ids)).
Proof. exact (delete_live_run n calls g os ids). Qed.
Print Assumptions C56_live_rows.
Example C56_live_case : exists g g', rg_run (fresh 2000) [[5; 1500]; [6; 5]] = Ok (g, [Some 2; None]) /\ rg_delete g [3; 1200; 4] = Ok (g', Some 3).
Proof. eexists. eexists. split; [vm_compute; reflexivity|]. vm_compute. reflexivity. Qed.

(** A list that comes back to a vector conflicts with itself; the first two rows are gone. *)
Theorem C56_repeat_refuted : exists g, rg_delete (fresh 2048) [0; 1024; 0] = Ok (g, None) /\ rg_select g 0 2 = [1] /\ rg_select g 1 2 = [1].
Proof. eexists. split; [vm_compute; reflexivity|]. split; vm_compute; reflexivity. Qed.
Print Assumptions C56_repeat_refuted.
(** A failed call has deleted row 0. *)
Theorem C56_failed_refuted : exists g, rg_run (fresh 2) [[1]; [0; 1]] = Ok (g, [Some 1; None]) /\ rg_select g 0 2 = [].
Proof. eexists. split; [vm_compute; reflexivity|]. vm_compute. reflexivity. Qed.
Print Assumptions C56_failed_refuted.
(** The buffer of 1024 rows overflows on a list that names one row 1025 times. *)
Theorem C56_overflow_refuted : rg_delete (fresh 1) (repeat 0 1025) = Err UB.
Proof. vm_compute. reflexivity. Qed.
Print Assumptions C56_overflow_refuted.
(** The reported size ignores deletes outside the first 1024 rows, and reads outside the arrays if there are
    deletes in it. *)
Theorem C56_size_refuted :
  (exists g, rg_delete (fresh 2048) [1500] = Ok (g, Some 1) /\ rg_size g = Ok 2048 /\ length (rg_select g 0 1024) + length (rg_select g 1 1024) = 2047) /\
  (exists g, rg_delete (fresh 2048) [0] = Ok (g, Some 1) /\ rg_size g = Err UB).
Proof.
  split; (eexists; split; [vm_compute; reflexivity|]).
  - split; vm_compute; reflexivity.
  - vm_compute. reflexivity.
Qed.
Print Assumptions C56_size_refuted.
