(** Rows of a table that is inserted into, deleted from and updated *)
From Coq Require Import Sorting.Permutation Sorting.Sorted.
From Verif Require Import Bytes Outcome VersionModel RowDelModel RowDelSpec RowGrpModel RowGrpSpec UpdModel.
Local Open Scope nat_scope.

(** what std::sort of the indexes of [keys] may return *)
Definition sorts (sort : list nat -> list nat) : Prop :=
  forall keys, Permutation (sort keys) (seq 0 (length keys)) /\ StronglySorted le (map (fun i => nth i keys 0) (sort keys)).

Inductive uact (A : Type) := UIns (chunks : list (list A)) | UDel (ids : list nat) | UUpd (l : list (nat * A)).
Arguments UIns {A}. Arguments UDel {A}. Arguments UUpd {A}.
Fixpoint uacts {A} (sort : list nat -> list nat) (t : tab A) (l : list (uact A)) : res (tab A * list (option nat)) :=
  match l with
  | [] => Ok (t, [])
  | UIns chunks :: r => do t' <- u_insert t chunks; uacts sort t' r
  | UDel ids :: r => do '(t', o) <- u_delete t ids; do '(t'', os) <- uacts sort t' r; Ok (t'', o :: os)
  | UUpd w :: r => do t' <- update_rows sort t w; uacts sort t' r
  end.

(** the value the list [w] of writes gives to row [r] *)
Fixpoint last_write {A} (w : list (nat * A)) (r : nat) : option A :=
  match w with
  | [] => None
  | (i, a) :: rest => match last_write rest r with Some b => Some b | None => if i =? r then Some a else None end
  end.
(** [rows'] is [rows] with [w] written to it *)
Definition written {A} (rows : list A) (w : list (nat * A)) (rows' : list A) : Prop :=
  length rows' = length rows /\ (forall i, In i (map fst w) -> i < length rows) /\
  forall r, r < length rows -> nth_error rows' r = match last_write w r with Some a => Some a | None => nth_error rows r end.

Inductive uhistory {A} : list A -> (nat -> bool) -> list (uact A) -> list (option nat) -> list A -> (nat -> bool) -> Prop :=
| uh_nil rows d : uhistory rows d [] [] rows d
| uh_ins rows d chunks l os rows' d' : uhistory (rows ++ concat chunks) d l os rows' d' -> uhistory rows d (UIns chunks :: l) os rows' d'
| uh_del rows d ids o d1 l os rows' d' : effect_on (length rows) d ids o d1 -> uhistory rows d1 l os rows' d' ->
    uhistory rows d (UDel ids :: l) (o :: os) rows' d'
| uh_upd rows d w rows1 l os rows' d' : written rows w rows1 -> uhistory rows1 d l os rows' d' -> uhistory rows d (UUpd w :: l) os rows' d'.

(** each call of update names a row at most once *)
Definition once {A} (l : list (uact A)) : Prop := forall w, In (UUpd w) l -> NoDup (map fst w).
Definition size_of {A} (a : uact A) : nat := match a with UIns chunks => length (concat chunks) | UDel ids => length ids | UUpd _ => 0 end.
Definition u_moderate {A} (l : list (uact A)) : Prop := (N.of_nat (list_sum (map size_of l)) < 2 ^ 62)%N.

(** row [r] was updated before, and rows of the same 1024 *)
Definition updated {A} (l : list (uact A)) (r : nat) : Prop := exists w, In (UUpd w) l /\ In r (map fst w).
Definition together (r s : nat) : Prop := r / CAP = s / CAP.
(** no row is updated that is after all rows of the same 1024 that were updated before *)
Definition not_beyond {A} (l : list (uact A)) (w : list (nat * A)) : Prop :=
  forall r, In r (map fst w) -> (exists s, updated l s /\ together s r) -> exists s, updated l s /\ together s r /\ r <= s.

(** tables all of whose columns are shared with the result of a scan (numbers), and none (strings) *)
Definition shared {A} (r : nat) (old new : A) : A := new.
Definition copied {A} (r : nat) (old new : A) : A := old.
