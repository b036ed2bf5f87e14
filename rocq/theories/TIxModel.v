(** An index on a column of a table: components/physical_plan/table/operators (operator_insert.cpp, operator_delete.cpp,
    operator_update.cpp, scan/index_scan.cpp), components/index/index_engine.cpp 137-153 and 250-280, single_field_index.cpp,
    components/physical_plan_generator/impl/create_plan_match.cpp 68-108, services/collection/create_index.cpp 32-40.
    Simplifications: a table of numbers without NULL and one index, in memory (no disk agent); statements on one table with
    a condition on one column or none; at most 1024 rows in a scan.  What the scan of a table, DELETE and UPDATE do to the
    table itself is in RowGrpModel, RowDelModel and UpdModel; here the table is the list of its rows by row id. *)
From Verif Require Import Bytes Outcome IndexingModel VecModel.
Local Open Scope nat_scope.

Notation row := (list Z) (only parsing).
(** An index: its column and its entries, key and row id, in the order of the multimap. *)
Record index := { icol : nat; ents : list (Z * nat) }.
(** All rows by id with the mark that they were not deleted; row ids are not used again. *)
Record state := { rows : list (row * bool); idx : option index }.

(** [compare_type], the six an index serves (create_plan_match.cpp 68-72) *)
Inductive cmp := CEq | CNe | CGt | CLt | CGte | CLte.
Definition holds (c : cmp) (x v : Z) : bool :=
  match c with
  | CEq => (x =? v)%Z | CNe => negb (x =? v)%Z | CGt => (v <? x)%Z | CLt => (x <? v)%Z | CGte => (v <=? x)%Z | CLte => (x <=? v)%Z
  end.
(** A condition on a column; [None]: a statement without one *)
Notation cond := (option (nat * cmp * Z)) (only parsing).
Definition cell (r : row) (j : nat) : Z := nth j r 0%Z.
Definition accepts (cd : cond) (r : row) : bool := match cd with None => true | Some (j, c, v) => holds c (cell r j) v end.

(** ** The index *)
Fixpoint prefix (p : Z * nat -> bool) (l : list (Z * nat)) : nat :=
  match l with [] => 0 | x :: r => if p x then S (prefix p r) else 0 end.
(** [lower_bound] and [upper_bound] of the multimap as positions *)
Definition lb (v : Z) (l : list (Z * nat)) : nat := prefix (fun e => (fst e <? v)%Z) l.
Definition ub (v : Z) (l : list (Z * nat)) : nat := prefix (fun e => (fst e <=? v)%Z) l.
(** single_field_index.cpp 32-34: after the entries with the same key *)
Definition put (k : Z) (id : nat) (l : list (Z * nat)) : list (Z * nat) := firstn (ub k l) l ++ (k, id) :: skipn (ub k l) l.
(** 42-44 [remove_impl]: erases the entry [find] gives, one of those with the key, [ch] says which; without one the end
    is erased *)
Definition drop (ch : Z -> list (Z * nat) -> nat) (k : Z) (l : list (Z * nat)) : res (list (Z * nat)) :=
  let n := ub k l - lb k l in
  if n =? 0 then Err UB else let p := lb k l + ch k l mod n in Ok (firstn p l ++ skipn (S p) l).
(** 46-59 *)
Definition find_range (v : Z) (l : list (Z * nat)) := firstn (ub v l - lb v l) (skipn (lb v l) l).
Definition lower_range (v : Z) (l : list (Z * nat)) := firstn (lb v l) l.
Definition upper_range (v : Z) (l : list (Z * nat)) := skipn (ub v l) l.
(** [search_range_by_index], index_scan.cpp 9-32, the ranges one after the other *)
Definition search (c : cmp) (v : Z) (l : list (Z * nat)) : list (Z * nat) :=
  match c with
  | CEq => find_range v l
  | CNe => lower_range v l ++ upper_range v l
  | CGt => upper_range v l
  | CLt => lower_range v l
  | CGte => find_range v l ++ upper_range v l
  | CLte => lower_range v l ++ find_range v l
  end.

(** ** Scans *)
Definition live (st : state) : list (nat * row) :=
  flat_map (fun p => match p with (i, (r, true)) => [(i, r)] | _ => [] end) (combine (seq 0 (length (rows st))) (rows st)).
Definition cut {A} (lim : option nat) (l : list A) : list A := match lim with None => l | Some n => firstn n l end.
(** full_scan.cpp 60-83 and transfer_scan.cpp 11-32 *)
Definition scan_full (st : state) (cd : cond) (lim : option nat) : list (nat * row) := cut lim (filter (fun p => accepts cd (snd p)) (live st)).
(** [search_by_index], index_scan.cpp 34-68, with [collection_t::fetch], components/table/collection.cpp 121-143: reads rows
    by id, deleted or not *)
Definition scan_index (st : state) (l : list (Z * nat)) (c : cmp) (v : Z) (lim : option nat) : list (nat * row) :=
  flat_map (fun e => match nth_error (rows st) (snd e) with Some (r, _) => [(snd e, r)] | None => [] end) (cut lim (search c v l)).
(** create_plan_match.cpp 79-108: an index on the column of the condition is used *)
Definition scan (st : state) (cd : cond) (lim : option nat) : list (nat * row) :=
  match cd, idx st with
  | Some (j, c, v), Some ix => if j =? icol ix then scan_index st (ents ix) c v lim else scan_full st cd lim
  | _, _ => scan_full st cd lim
  end.

(** ** Statements *)
(** create_index.cpp 32-40: the new index is filled from the documents; a table has none *)
Definition create (st : state) (col : nat) : state := {| rows := rows st; idx := Some {| icol := col; ents := [] |} |}.

(** [value] of a column of the rows to insert: the chunk has room for 1024 rows, those it does not have read as 0 (VecModel
    [new_vec] and [raw_data]) *)
Definition chunk_cell (xs : list row) (col i : nat) : res Z :=
  match nth_error xs i with Some r => Ok (cell r col) | None => if i <? VCAP then Ok 0%Z else Err UB end.
(** operator_insert.cpp 18-23 with index_engine.cpp 250-264: the key is read at the row id, not at the row of the chunk *)
Fixpoint index_new (xs : list row) (col start : nat) (n id : nat) (l : list (Z * nat)) : res (list (Z * nat)) :=
  match n with
  | O => Ok l
  | S k => do z <- chunk_cell xs col (id + start); index_new xs col start k (S id) (put z (id + start) l)
  end.
(** operator_insert.cpp 9-28 *)
Definition insert (st : state) (xs : list row) : res state :=
  let rs := rows st ++ map (fun r => (r, true)) xs in
  match idx st with
  | None => Ok {| rows := rs; idx := None |}
  | Some ix => do l <- index_new xs (icol ix) (length (rows st)) (length xs) 0 (ents ix);
               Ok {| rows := rs; idx := Some {| icol := icol ix; ents := l |} |}
  end.

Fixpoint mark (rs : list (row * bool)) (ids : list nat) : list (row * bool) :=
  match ids with [] => rs | i :: r => mark (match nth_error rs i with Some (x, _) => list_set rs i (x, false) | None => rs end) r end.
(** operator_delete.cpp 82-86 with index_engine.cpp 266-280 *)
Fixpoint index_gone (ch : Z -> list (Z * nat) -> nat) (ks : list Z) (l : list (Z * nat)) : res (list (Z * nat)) :=
  match ks with [] => Ok l | k :: r => do l' <- drop ch k l; index_gone ch r l' end.
(** operator_delete.cpp 56-87; the rows of the scan are those of the condition, create_plan_delete.cpp 91-96 *)
Definition delete (ch : Z -> list (Z * nat) -> nat) (st : state) (cd : cond) : res state :=
  let found := scan st cd None in
  let rs := mark (rows st) (map fst found) in
  match idx st with
  | None => Ok {| rows := rs; idx := None |}
  | Some ix => do l <- index_gone ch (map (fun p => cell (snd p) (icol ix)) found) (ents ix);
               Ok {| rows := rs; idx := Some {| icol := icol ix; ents := l |} |}
  end.

(** operator_update.cpp 112-137: the old key is removed, the new one added with the position in the scan as row id *)
Fixpoint index_moved (ch : Z -> list (Z * nat) -> nat) (col j : nat) (v : Z) (found : list row) (i : nat) (l : list (Z * nat)) : res (list (Z * nat)) :=
  match found with
  | [] => Ok l
  | r :: fs => do l' <- drop ch (cell r col) l; index_moved ch col j v fs (S i) (put (cell (list_set r j v) col) i l')
  end.
Fixpoint overwrite (rs : list (row * bool)) (j : nat) (v : Z) (ids : list nat) : list (row * bool) :=
  match ids with
  | [] => rs
  | i :: r => overwrite (match nth_error rs i with Some (x, b) => list_set rs i (list_set x j v, b) | None => rs end) j v r
  end.
(** operator_update.cpp 88-142, for an update that sets a column to a value *)
Definition update (ch : Z -> list (Z * nat) -> nat) (st : state) (cd : cond) (j : nat) (v : Z) : res state :=
  let found := scan st cd None in
  let rs := overwrite (rows st) j v (map fst found) in
  match idx st with
  | None => Ok {| rows := rs; idx := None |}
  | Some ix => do l <- index_moved ch (icol ix) j v (map snd found) 0 (ents ix);
               Ok {| rows := rs; idx := Some {| icol := icol ix; ents := l |} |}
  end.

Inductive stmt := Create (col : nat) | Insert (xs : list (list Z)) | Delete (cd : option (nat * cmp * Z)) | Update (cd : option (nat * cmp * Z)) (j : nat) (v : Z).
Definition step (ch : Z -> list (Z * nat) -> nat) (st : state) (s : stmt) : res state :=
  match s with
  | Create col => Ok (create st col)
  | Insert xs => insert st xs
  | Delete cd => delete ch st cd
  | Update cd j v => update ch st cd j v
  end.
Fixpoint steps (ch : Z -> list (Z * nat) -> nat) (st : state) (l : list stmt) : res state :=
  match l with [] => Ok st | s :: r => do st' <- step ch st s; steps ch st' r end.
Definition empty : state := {| rows := []; idx := None |}.
(** SELECT * WHERE … LIMIT … *)
Definition query (st : state) (cd : cond) (lim : option nat) : list (list Z) := map snd (scan st cd lim).
