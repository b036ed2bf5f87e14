(** Deleting rows: a set of deleted rows *)
From Verif Require Import Bytes Outcome VersionModel RowDelModel.
Local Open Scope nat_scope.

Definition mem (r : nat) (l : list nat) : bool := existsb (Nat.eqb r) l.

(** what one call does to the set [d] of deleted rows *)
Definition effect (d : nat -> bool) (ids : list nat) (outcome : option nat) (d' : nat -> bool) : Prop :=
  match outcome with
  | Some k => (forall r, d' r = d r || mem r ids) /\ (forall r, In r ids -> d r = false) /\ k = length (nodup Nat.eq_dec ids)
  | None => (forall r, d r = true -> d' r = true) /\ (forall r, d' r = true -> d r = true \/ In r ids) /\
            ((exists r, In r ids /\ d r = true) \/ ~ NoDup ids)
  end.
Inductive effects : (nat -> bool) -> list (list nat) -> list (option nat) -> (nat -> bool) -> Prop :=
| eff_nil d : effects d [] [] d
| eff_cons d ids o d1 cs os d2 : effect d ids o d1 -> effects d1 cs os d2 -> effects d (ids :: cs) (o :: os) d2.
