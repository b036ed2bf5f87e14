(** Model of the memory behind scans of a column: components/table/column_data.cpp (383-455 [scan_vector],
    58-71 [get_vector_scan_type], 145-152 [select]), column_segment.cpp (179-191, 446-473, 575-596, 698-712),
    vector.cpp (234-262 [slice]) and the loop of collection.cpp:87-110, at the level of cells of one value: a
    number, or the [string_view] of a string.  Memory is a map from buffers and places to values.
    Not modelled: NULLs, whose bits are copied, the bytes of strings (StrSegModel), conditions and the choice of
    the rows that are not deleted (RowGrpModel), the release of buffers. *)
From Verif Require Import Bytes Outcome.
Local Open Scope nat_scope.

Section Alias.
Context {A : Type}.
Definition mem := nat -> nat -> A.
Definition put (m : mem) (b p : nat) (a : A) : mem := fun b' p' => if (b' =? b) && (p' =? p) then a else m b' p'.
(** the part of column_segment_t that scans read; the buffer of the block, used from its beginning *)
Record seg := { sg_start : nat; sg_count : nat; sg_buf : nat }.
(** a column of a row group: whether it holds strings, its segments, the rows of its updates (update_segment.cpp) *)
Record column := { c_str : bool; c_segs : list seg; c_upds : list (nat * A) }.
(** vector_t: [data_], as buffer and place, and the positions of a DICTIONARY.  The child of a dictionary is a
    copy of the vector and has the same [data_] (vector.cpp:252-261). *)
Record vec := { v_buf : nat; v_off : nat; v_idx : option (list nat) }.
Definition flat_vec (b o : nat) : vec := {| v_buf := b; v_off := o; v_idx := None |}.

(** vector.cpp [value]: the first [n] rows of a vector *)
Fixpoint gather (m : mem) (v : vec) (l : list nat) (n : nat) : res (list A) :=
  match n, l with
  | O, _ => Ok []
  | S _, [] => Err UB
  | S k, p :: r => do x <- gather m v r k; Ok (m (v_buf v) (v_off v + p) :: x)
  end.
Definition read (m : mem) (v : vec) (n : nat) : res (list A) :=
  gather m v (match v_idx v with None => seq 0 n | Some l => l end) n.
(** vector.cpp:234-262: a dictionary over a dictionary refers to the same child *)
Fixpoint compose (l s : list nat) : res (list nat) :=
  match s with
  | [] => Ok []
  | p :: r => match nth_error l p with None => Err UB | Some q => do x <- compose l r; Ok (q :: x) end
  end.
Definition slice (v : vec) (s : list nat) : res vec :=
  do i <- match v_idx v with None => Ok s | Some l => compose l s end; Ok {| v_buf := v_buf v; v_off := v_off v; v_idx := Some i |}.

(** column_segment.cpp:179-191 [fixed_size_fetch_row] for the rows [row .. row + n) of the segment, as the
    loop of column_data.cpp:410-416 calls it; the fetch of a string writes the same cell.  The places of one
    copy must differ. *)
Fixpoint fetch_rows (m : mem) (s : seg) (row : nat) (v : vec) (idx n : nat) : res mem :=
  match n with
  | O => Ok m
  | S k => if (sg_buf s =? v_buf v) && (row =? v_off v + idx) then Err UB
           else fetch_rows (put m (v_buf v) (v_off v + idx) (m (sg_buf s) row)) s (S row) v (S idx) k
  end.
(** column_segment.cpp:446-458 [fixed_size_scan_partial], one [memcpy] of [n] values, which must not overlap;
    575-596 [string_scan_partial] *)
Definition copy_rows (m : mem) (s : seg) (row : nat) (v : vec) (idx n : nat) : res mem :=
  if (sg_buf s =? v_buf v) && (row <? v_off v + idx + n) && (v_off v + idx <? row + n) then Err UB
  else Ok (fun b p => if (b =? v_buf v) && (v_off v + idx <=? p) && (p <? v_off v + idx + n) then m (sg_buf s) (row + (p - (v_off v + idx))) else m b p).
(** column_segment.cpp:698-712, 1209-1321.  [entire] is SCAN_ENTIRE_VECTOR.  For values of a fixed size it makes
    the result point to the segment (460-473); both ways make it flat.  Strings are copied to the beginning of
    the result, the type of which is kept. *)
Definition seg_scan (str entire : bool) (m : mem) (s : seg) (row : nat) (v : vec) (idx n : nat) : res (mem * vec) :=
  if str then do m' <- copy_rows m s row v (if entire then 0 else idx) n; Ok (m', v)
  else if entire then Ok (m, flat_vec (sg_buf s) row)
  else do m' <- copy_rows m s row v idx n; Ok (m', flat_vec (v_buf v) (v_off v)).

(** column_data.cpp:383-438 [scan_vector]: the rows from [row] on, [idx] of which the result has already *)
Fixpoint scan_segs (str entire : bool) (m : mem) (segs : list seg) (row : nat) (v : vec) (idx remaining : nat) : res (mem * vec * nat) :=
  match segs with
  | [] => Ok (m, v, idx)
  | s :: r =>
    let n := Nat.min remaining (sg_start s + sg_count s - row) in
    do '(m', v') <- (if n =? 0 then Ok (m, v)
                     else do m1 <- fetch_rows m s (row - sg_start s) v idx n; seg_scan str entire m1 s (row - sg_start s) v idx n);
    if remaining - n =? 0 then Ok (m', v', idx + n) else scan_segs str entire m' r (row + n) v' (idx + n) (remaining - n)
  end.
(** column_data.cpp:58-71: a result that is not flat is scanned entire, with updates or without *)
Definition scan_entire (c : column) (v : vec) (n : nat) : bool :=
  match v_idx v, c_upds c, c_segs c with
  | Some _, _, _ => true
  | None, [], s :: _ => n <=? sg_count s
  | _, _, _ => false
  end.
(** column_data.cpp:441-455, from the first row of the column; the updates are written over the result unless
    the scan was entire *)
Definition scan_column (m : mem) (c : column) (v : vec) (n : nat) : res (mem * vec) :=
  match c_segs c with
  | [] => Err UB
  | s :: _ =>
    do '(m', v', k) <- scan_segs (c_str c) (scan_entire c v n) m (c_segs c) (sg_start s) v 0 n;
    Ok (if scan_entire c v n then m' else fold_left (fun h u => if fst u <? k then put h (v_buf v') (v_off v' + fst u) (snd u) else h) (c_upds c) m', v')
  end.
(** row_group.cpp:249-323 over one vector of the group: all rows ([None]), or those that are not deleted
    (column_data.cpp:145-152) *)
Definition group_rows (c : column) : nat := list_sum (map sg_count (c_segs c)).
Definition scan_chunk (m : mem) (c : column) (sel : option (list nat)) (v : vec) : res (mem * vec * list A) :=
  do '(m', v') <- scan_column m c v (group_rows c);
  match sel with
  | None => do l <- read m' v' (group_rows c); Ok (m', v', l)
  | Some s => do v'' <- slice v' s; do l <- read m' v'' (length s); Ok (m', v'', l)
  end.

(** collection.cpp:87-110 [scan] over the column of each row group of at most 1024 rows: one chunk, whose
    vectors [reset] does not touch (data_chunk.cpp:27-33).  The function reads the rows of the chunk. *)
Fixpoint scan_groups (m : mem) (gs : list (column * option (list nat))) (v : vec) : res (mem * list (list A)) :=
  match gs with
  | [] => Ok (m, [])
  | (c, sel) :: r =>
    do '(m1, v1, l) <- scan_chunk m c sel v;
    do '(m2, o) <- scan_groups m1 r v1;
    Ok (m2, l :: o)
  end.
(** vector.cpp:419- [set_value] of a flat vector *)
Definition set_value (m : mem) (v : vec) (i : nat) (a : A) : mem := put m (v_buf v) (v_off v + i) a.
End Alias.
Arguments mem : clear implicits. Arguments column : clear implicits.
