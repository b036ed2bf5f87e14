(** What transactions see: every row has an inserter and perhaps a deleter, each either still running or
    committed at some time. *)
From Verif Require Import Bytes Outcome VersionModel.
Local Open Scope nat_scope.

Inductive who := Running (t : N) | Committed (c : N).
Record arow := { a_ins : who; a_del : option who }.
(** [low]: no transaction looked at from now on started at or before this time *)
Record astate := { total : nat; row : nat -> arow; low : N }.

(** transaction [x] sees what [w] did: it is its own doing, or [w] committed before [x] started *)
Definition sees (x : txn) (w : who) : bool :=
  match w with Running t => (t =? tid x)%N | Committed c => (c <? start_time x)%N end.
Definition visible (x : txn) (r : arow) : bool :=
  sees x (a_ins r) && negb (match a_del r with Some w => sees x w | None => false end).

(** ids of running transactions lie above all times *)
Definition running_id (t : N) : Prop := (TRANSACTION_ID_START <= t < NOT_DELETED_ID)%N.
Definition time_ok (c : N) : Prop := (c < TRANSACTION_ID_START)%N.
Definition txn_ok (a : astate) (x : txn) : Prop :=
  running_id (tid x) /\ (low a < start_time x <= TRANSACTION_ID_START)%N.

(** committed no later than [low] *)
Definition old (l : N) (w : who) : Prop := exists c, w = Committed c /\ (c <= l)%N.

Inductive op :=
| Append (t : N) (n : nat)                 (* t adds n rows at the end *)
| CommitAppend (c : N) (s n : nat)         (* the transaction that added rows [s, s+n) commits at time c *)
| Revert (s : nat)                         (* the rows from s on are taken back *)
| Delete (i : nat) (t : N) (rows : list nat)       (* t deletes these rows of vector i *)
| CommitDelete (i : nat) (c : N) (rows : list nat) (* the transaction that deleted them commits at c *)
| Cleanup (l : N) (s n : nat).             (* version data no transaction after l needs is dropped *)

Definition set_rows (f : nat -> arow) (p : nat -> bool) (g : arow -> arow) : nat -> arow :=
  fun r => if p r then g (f r) else f r.
Definition ins_by (w : who) (r : arow) : arow := {| a_ins := w; a_del := a_del r |}.
Definition del_by (w : who) (r : arow) : arow := {| a_ins := a_ins r; a_del := Some w |}.
Definition in_vector (i : nat) (rows : list nat) (r : nat) : bool := (r / CAP =? i) && existsb (Nat.eqb (r mod CAP)) rows.

(** the meaning of the operations *)
Definition astep (a : astate) (o : op) : astate :=
  match o with
  | Append t n => {| total := total a + n; low := low a;
                     row := fun r => if (total a <=? r) && (r <? total a + n) then {| a_ins := Running t; a_del := None |} else row a r |}
  | CommitAppend c s n => {| total := total a; low := low a; row := set_rows (row a) (fun r => (s <=? r) && (r <? s + n)) (ins_by (Committed c)) |}
  | Revert s => {| total := s; low := low a; row := row a |}
  | Delete i t rows => {| total := total a; low := low a; row := set_rows (row a) (in_vector i rows) (del_by (Running t)) |}
  | CommitDelete i c rows => {| total := total a; low := low a; row := set_rows (row a) (in_vector i rows) (del_by (Committed c)) |}
  | Cleanup l s n => {| total := total a; low := N.max (low a) l; row := row a |}
  end.

(** the conflict rule: all rows are free or already deleted by the same transaction *)
Definition free_for (t : N) (r : arow) : Prop := a_del r = None \/ a_del r = Some (Running t).

(** the order of use the manager expects.  A commit covers all rows the transaction added; rows taken
    back are all rows of one running transaction and not deleted; and (see [C38_refuted]) no vector to be cleaned has a first row that
    is not old while all its other rows are. *)
Definition legal (a : astate) (o : op) : Prop :=
  match o with
  | Append t n => n <> 0 /\ running_id t
  | CommitAppend c s n => n <> 0 /\ time_ok c /\ s + n <= total a /\
      exists t, (forall r, s <= r < s + n -> a_ins (row a r) = Running t) /\
                (forall r, r < total a -> a_ins (row a r) = Running t -> s <= r < s + n)
  | Revert s => s <= total a /\ exists t, (forall r, s <= r < total a -> a_ins (row a r) = Running t /\ a_del (row a r) = None) /\
      (forall r, r < s -> a_ins (row a r) <> Running t)
  | Delete i t rows => rows <> [] /\ running_id t /\ forall p, In p rows -> p < CAP /\ i * CAP + p < total a /\ free_for t (row a (i * CAP + p))
  | CommitDelete i c rows => rows <> [] /\ time_ok c /\ forall p, In p rows -> p < CAP /\ i * CAP + p < total a /\ exists t, a_del (row a (i * CAP + p)) = Some (Running t)
  | Cleanup l s n => (low a <= l)%N /\ time_ok l /\ s + n <= total a /\
      forall i, s / CAP <= i -> (i + 1) * CAP <= s + n ->
        old l (a_ins (row a (i * CAP))) \/ exists p, 0 < p < CAP /\ ~ old l (a_ins (row a (i * CAP + p)))
  end.
Fixpoint legal_all (a : astate) (ops : list op) : Prop :=
  match ops with [] => True | o :: r => legal a o /\ legal_all (astep a o) r end.
Definition arun (a : astate) (ops : list op) : astate := fold_left astep ops a.

(** the same operations on the model *)
Definition mstep (a : astate) (m : manager) (o : op) : res manager :=
  match o with
  | Append t n => append_version_info m t (total a) (total a + n)
  | CommitAppend c s n => commit_append m c s n
  | Revert s => Ok (revert_append m s)
  | Delete i t rows => do mr <- delete_rows m i t rows; match snd mr with Some _ => Ok (fst mr) | None => Err Throw end
  | CommitDelete i c rows => commit_delete m i c rows
  | Cleanup l s n => cleanup_append m l s n
  end.
Fixpoint mrun (a : astate) (m : manager) (ops : list op) : res manager :=
  match ops with [] => Ok m | o :: r => do m' <- mstep a m o; mrun (astep a o) m' r end.

(** a table with [n] rows that everyone sees *)
Definition a0 (n : nat) : astate := {| total := n; row := fun _ => {| a_ins := Committed 0; a_del := None |}; low := 0 |}.
