(** What C77 speaks of: the rows a column holds, and what it means that a scan leaves them alone *)
From Verif Require Import Bytes Outcome AliasModel.
Local Open Scope nat_scope.

(** the rows of a segment, and of a column with its updates *)
Definition seg_rows {A} (m : mem A) (s : seg) : list A := map (m (sg_buf s)) (seq 0 (sg_count s)).
Definition set_nth {A} (l : list A) (u : nat * A) : list A :=
  if fst u <? length l then firstn (fst u) l ++ snd u :: skipn (S (fst u)) l else l.
Definition base_rows {A} (m : mem A) (c : column A) : list A := flat_map (seg_rows m) (c_segs c).
Definition rows_of {A} (m : mem A) (c : column A) : list A := fold_left set_nth (c_upds c) (base_rows m c).
(** each segment starts where the one before ends *)
Fixpoint chained (start : nat) (g : list seg) : Prop :=
  match g with [] => True | s :: r => sg_start s = start /\ chained (start + sg_count s) r end.
Definition well {A} (c : column A) : Prop := match c_segs c with [] => False | s :: _ => chained (sg_start s) (c_segs c) end.
(** a flat vector the memory of which is not that of the column *)
Definition apart {A} (v : vec) (c : column A) : Prop := forall s, In s (c_segs c) -> sg_buf s <> v_buf v.
Definition fresh {A} (v : vec) (c : column A) : Prop := v_idx v = None /\ apart v c.
(** the rows at the positions [sel], or all *)
Definition chosen {A} (rows : list A) (sel : option (list nat)) : list A :=
  match sel with None => rows | Some s => flat_map (fun p => match nth_error rows p with Some a => [a] | None => [] end) s end.
Definition inside {A} (rows : list A) (sel : option (list nat)) : Prop :=
  match sel with None => True | Some s => forall p, In p s -> p < length rows end.

(** scans of columns, each with a vector of its own *)
Fixpoint scan_each {A} (m : mem A) (l : list (column A * option (list nat) * vec)) : res (mem A * list (list A)) :=
  match l with
  | [] => Ok (m, [])
  | (c, sel, v) :: r =>
    do '(m1, _, x) <- scan_chunk m c sel v;
    do '(m2, o) <- scan_each m1 r;
    Ok (m2, x :: o)
  end.

(** a column of numbers, and one of strings, of one segment, without updates *)
Definition numbers {A} (s : seg) : column A := {| c_str := false; c_segs := [s]; c_upds := [] |}.
Definition strings {A} (s : seg) : column A := {| c_str := true; c_segs := [s]; c_upds := [] |}.
(** row groups of one segment each, in memory of its own, none longer than the one before it *)
Fixpoint plain (gs : list seg) : Prop :=
  match gs with
  | [] => True
  | s :: r => 0 < sg_count s /\ (forall s', In s' r -> sg_buf s' <> sg_buf s /\ sg_count s' <= sg_count s) /\ plain r
  end.
(** each list with its beginning replaced by the list after it *)
Fixpoint shifted {A} (l : list (list A)) : list (list A) :=
  match l with
  | x :: (y :: _) as r => (y ++ skipn (length y) x) :: shifted r
  | _ => l
  end.
