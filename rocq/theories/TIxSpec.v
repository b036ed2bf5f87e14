(** A table: the list of its rows. *)
From Verif Require Import Bytes Outcome TIxModel.
Require Import Permutation.
Local Open Scope nat_scope.

(** What the statements mean.  A condition compares the value in a column of a row. *)
Definition meets (cd : option (nat * cmp * Z)) (r : list Z) : bool :=
  match cd with
  | None => true
  | Some (j, c, v) =>
    match c, (nth j r 0 ?= v)%Z with
    | CEq, Eq | CNe, Lt | CNe, Gt | CGt, Gt | CLt, Lt | CGte, Gt | CGte, Eq | CLte, Lt | CLte, Eq => true
    | _, _ => false
    end
  end.
Fixpoint set_cell (r : list Z) (j : nat) (v : Z) : list Z :=
  match r, j with [], _ => [] | _ :: t, O => v :: t | x :: t, S k => x :: set_cell t k v end.
Definition means (t : list (list Z)) (s : stmt) : list (list Z) :=
  match s with
  | Create _ => t
  | Insert xs => t ++ xs
  | Delete cd => filter (fun r => negb (meets cd r)) t
  | Update cd j v => map (fun r => if meets cd r then set_cell r j v else r) t
  end.
Definition table (l : list stmt) : list (list Z) := fold_left means l [].
(** Some rows of a table, [lim] at most, in any order. *)
Definition answers (q t : list (list Z)) (lim : option nat) : Prop :=
  exists rest, Permutation (q ++ rest) t /\ length q = match lim with None => length t | Some n => Nat.min n (length t) end.

(** The guard: an index is created before any row is inserted, its table is filled by one statement and not updated, and a
    DELETE takes all rows with a key or none of them.  [ix]: the column of the index; [used]: rows were inserted; [t]: the table. *)
Fixpoint fits (ix : option nat) (used : bool) (t : list (list Z)) (l : list stmt) : bool :=
  match l with
  | [] => true
  | s :: r =>
    match s with
    | Create col => negb used && fits (Some col) used (means t s) r
    | Insert xs => match ix with
                   | None => fits ix true (means t s) r
                   | Some _ => negb used && (length xs <=? 1024) && fits ix true (means t s) r
                   end
    | Delete cd => match ix with
                   | None => true
                   | Some col => forallb (fun x => forallb (fun y => negb (meets cd x && negb (meets cd y) && (nth col x 0 =? nth col y 0)%Z)) t) t
                   end && fits ix used (means t s) r
    | Update cd j v => match ix with None => true | Some _ => false end && fits ix used (means t s) r
    end
  end.
