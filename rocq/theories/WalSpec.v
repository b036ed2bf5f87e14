(** Specification of the log: the history is the list of logged operations, numbered from 1. *)
From Verif Require Import Bytes MsgpackModel WalModel.
Local Open Scope N_scope.

(** operations logged by a sequence of events, in order *)
Definition logged (es : list wal_event) : list (mp * mp) :=
  flat_map (fun e => match e with Append n p => [(n, p)] | Reopen => [] end) es.

(** number the operations from [i] *)
Fixpoint number (i : N) (l : list (mp * mp)) : list (N * mp * mp) :=
  match l with [] => [] | (n, p) :: r => (i, n, p) :: number (i + 1) r end.

Definition history (es : list wal_event) : list (N * mp * mp) := number 1 (logged es).

(** operations after id [k] *)
Definition after (k : N) (h : list (N * mp * mp)) : list (N * mp * mp) :=
  filter (fun x => k <? fst (fst x)) h.

(** what a recovered record says: id, statement, parameters *)
Definition rec_content (r : record_t) : option (N * mp * mp) :=
  match rbody r with Some (_, i, n, p) => Some (i, n, p) | None => None end.

(** An operation that fits a record: legal MessagePack values, and at most 65535 bytes together with
    the array head (1), the previous checksum (at most 5) and the id (at most 9). *)
Definition fits (n p : mp) : bool :=
  wf n && wf p && (N.of_nat (length (enc n)) + N.of_nat (length (enc p)) <=? 65520).
Definition event_fits (e : wal_event) : bool :=
  match e with Append n p => fits n p | Reopen => true end.
