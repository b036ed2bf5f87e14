(** The rows of a table as a list, with the set of the rows deleted *)
From Verif Require Import Bytes Outcome VersionModel RowDelModel RowDelSpec RowGrpModel.
Local Open Scope nat_scope.

(** each group starts where the one before it ends *)
Fixpoint contiguous {A} (s : nat) (gs : list (group A)) : Prop :=
  match gs with [] => True | g :: r => g_start g = s /\ contiguous (s + g_count g) r end.
(** the groups hold the rows [rows], in order *)
Definition layout {A} (c : coll A) (rows : list A) : Prop :=
  contiguous (row_start c) (groups c) /\
  Forall (fun g => g_count g <= gsize c /\ length (g_data g) = g_count g) (groups c) /\
  total c = length rows /\ concat (map g_data (groups c)) = rows.

(** what is done to a table *)
Inductive op (A : Type) := Insert (chunks : list (list A)) | Merge (other : coll A).
Arguments Insert {A}. Arguments Merge {A}.
Fixpoint run {A} (c : coll A) (ops : list (op A)) : res (coll A) :=
  match ops with
  | [] => Ok c
  | Insert chunks :: r => do '(c', _) <- insert c chunks; run c' r
  | Merge d :: r => run (merge c d) r
  end.
Definition rows_of {A} (o : op A) : list A := match o with Insert chunks => concat chunks | Merge d => concat (map g_data (groups d)) end.
(** only tables of the same group size are merged *)
Definition op_ok {A} (size : nat) (o : op A) : Prop :=
  match o with Insert _ => True | Merge d => gsize d = size /\ exists rows, layout d rows end.

(** inserts and deletes of lists of row ids; the result of a delete is the number it reports, [None] an
    exception *)
Inductive act (A : Type) := Ins (chunks : list (list A)) | Del (ids : list nat).
Arguments Ins {A}. Arguments Del {A}.
Fixpoint acts {A} (c : coll A) (l : list (act A)) : res (coll A * list (option nat)) :=
  match l with
  | [] => Ok (c, [])
  | Ins chunks :: r => do '(c', _) <- insert c chunks; acts c' r
  | Del ids :: r => do '(c', o) <- delete_ids c ids; do '(c'', os) <- acts c' r; Ok (c'', o :: os)
  end.
(** what deleting [ids] from a table of [n] rows does to the set [d] of deleted rows *)
Definition effect_on (n : nat) (d : nat -> bool) (ids : list nat) (outcome : option nat) (d' : nat -> bool) : Prop :=
  match outcome with
  | Some k => (forall r, d' r = d r || mem r ids) /\ (forall r, In r ids -> r < n /\ d r = false) /\ k = length (nodup Nat.eq_dec ids)
  | None => (forall r, d r = true -> d' r = true) /\ (forall r, d' r = true -> d r = true \/ In r ids) /\
            ((exists r, In r ids /\ (d r = true \/ n <= r)) \/ ~ NoDup ids)
  end.
Inductive history {A} : list A -> (nat -> bool) -> list (act A) -> list (option nat) -> list A -> (nat -> bool) -> Prop :=
| h_nil rows d : history rows d [] [] rows d
| h_ins rows d chunks l os rows' d' : history (rows ++ concat chunks) d l os rows' d' -> history rows d (Ins chunks :: l) os rows' d'
| h_del rows d ids o d1 l os rows' d' : effect_on (length rows) d ids o d1 -> history rows d1 l os rows' d' ->
    history rows d (Del ids :: l) (o :: os) rows' d'.
Definition none_deleted : nat -> bool := fun _ => false.

(** the rows that are not deleted, with their ids *)
Definition live_ids {A} (rows : list A) (d : nat -> bool) : list (nat * A) :=
  filter (fun p => negb (d (fst p))) (combine (seq 0 (length rows)) rows).
Definition live {A} (rows : list A) (d : nat -> bool) : list A := map snd (live_ids rows d).
Definition satisfies {A} (f : option (A -> bool)) (a : A) : bool := match f with None => true | Some f => f a end.
(** the first [limit], or all *)
Fixpoint first_of {B} (n : nat) (l : list B) : list B := match n, l with S m, x :: r => x :: first_of m r | _, _ => [] end.
Definition up_to {B} (limit : option nat) (l : list B) : list B := match limit with Some n => first_of n l | None => l end.
(** the ids of the first [limit] live rows that satisfy [f] *)
Definition victims {A} (f : option (A -> bool)) (rows : list A) (d : nat -> bool) (limit : option nat) : list nat :=
  map fst (up_to limit (filter (fun p => satisfies f (snd p)) (live_ids rows d))).
(** how many rows and ids a history names: far fewer than 2^63 *)
Definition new_rows {A} (l : list (act A)) : nat := list_sum (map (fun a => match a with Ins chunks => length (concat chunks) | Del _ => 0 end) l).
Definition del_ids {A} (l : list (act A)) : nat := list_sum (map (fun a => match a with Ins _ => 0 | Del ids => length ids end) l).
Definition moderate {A} (l : list (act A)) : Prop := (N.of_nat (new_rows l + del_ids l) < 2 ^ 62)%N.
