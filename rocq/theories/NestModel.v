(** Nested columns: lists (components/table/list_column_data.cpp), arrays of fixed size (array_column_data.cpp) and structs
    (struct_column_data.cpp) over plain columns (standard_column_data.cpp); vectors in memory with their slices and copies
    (components/vector/vector.cpp 228-262, 793-802, 1069-1075; vector_buffer.cpp 99-121; vector_operations.cpp 560-834).
    Simplifications: the rows of a column are one list, not segments in blocks (SegModel, VSegModel, StrSegModel); plain values
    are numbers; sizes do not wrap around; one row group; no updates, deletes or filters; a sliced vector has the rows its
    dictionary selects, and the flat form made of it ([flatten], which copies) where a column asks for one. *)
From Verif Require Import Bytes Outcome.
Local Open Scope nat_scope.

Definition sub {A} (l : list A) (i n : nat) : list A := firstn n (skipn i l).

(** Types.  The fields of a struct are a chain: one and the rest ([TBoth]), or none ([TEnd]). *)
Inductive ty := TLeaf | TList (t : ty) | TArray (size : nat) (t : ty) | TStruct (fs : ty) | TBoth (a b : ty) | TEnd.
(** Columns: plain values with validity; offsets where the lists end, validity and elements (list_column_data.hpp); validity and
    elements; validity and fields. *)
Inductive col :=
| CLeaf (d : list (option N)) | CList (offs : list nat) (vd : list bool) (c : col)
| CArray (size : nat) (vd : list bool) (c : col) | CStruct (vd : list bool) (fs : col) | CBoth (a b : col) | CEnd.
(** Vectors.  A list is an offset and a length ([list_entry_t]) in the vector of elements. *)
Inductive vec :=
| VLeaf (d : list (option N)) | VList (es : list (option (nat * nat))) (v : vec)
| VArray (size : nat) (vd : list bool) (v : vec) | VStruct (vd : list bool) (fs : vec) | VBoth (a b : vec) | VEnd.

(** list_column_data.cpp 5-15, column_data.cpp 339-365 [create_column] *)
Fixpoint new (t : ty) : col :=
  match t with
  | TLeaf => CLeaf [] | TList t' => CList [] [] (new t') | TArray n t' => CArray n [] (new t')
  | TStruct fs => CStruct [] (new fs) | TBoth a b => CBoth (new a) (new b) | TEnd => CEnd
  end.
(** column_data.cpp 34 [max_entry]; struct_column_data.cpp 37: that of the first field *)
Fixpoint max_entry (c : col) : nat :=
  match c with
  | CLeaf d => length d | CList offs _ _ => length offs | CArray _ vd _ => length vd
  | CStruct _ fs => max_entry fs | CBoth a _ => max_entry a | CEnd => 0
  end.
Fixpoint vempty (c : col) : vec :=
  match c with
  | CLeaf _ => VLeaf [] | CList _ _ c' => VList [] (vempty c') | CArray n _ c' => VArray n [] (vempty c')
  | CStruct _ fs => VStruct [] (vempty fs) | CBoth a b => VBoth (vempty a) (vempty b) | CEnd => VEnd
  end.

(** ** Slices *)
Definition row {A} (d : A) (l : list A) (ix : list nat) : list A := map (fun i => nth i l d) ix.
(** vector.cpp 234-262 and 793-802, vector_operations.cpp 742-768: copying an array copies [type().size()] elements of each row,
    which for an array is 0 (types.cpp 162-164). *)
Fixpoint take (v : vec) (ix : list nat) : vec :=
  match v with
  | VLeaf d => VLeaf (row None d ix)
  | VList es v' => VList (row None es ix) v'
  | VArray n vd v' => VArray n (row false vd ix) (take v' [])
  | VStruct vd fs => VStruct (row false vd ix) (take fs ix)
  | VBoth a b => VBoth (take a ix) (take b ix)
  | VEnd => VEnd
  end.

(** ** Append (list_column_data.cpp 155-211) *)
(** 168-182 *)
Fixpoint offsets (at_ : nat) (es : list (option (nat * nat))) : list nat :=
  match es with
  | [] => []
  | Some (_, l) :: r => (at_ + l) :: offsets (at_ + l) r
  | None :: r => at_ :: offsets at_ r
  end.
Fixpoint total (es : list (option (nat * nat))) : nat :=
  match es with [] => 0 | Some (_, l) :: r => l + total r | None :: r => total r end.
Fixpoint contiguous (count : nat) (es : list (option (nat * nat))) : bool :=
  match es with
  | [] => true
  | Some (o, l) :: r => (o =? count) && contiguous (count + l) r
  | None :: r => contiguous count r
  end.
Definition valid {A} (x : option A) : bool := match x with Some _ => true | None => false end.
(** 186-197 *)
Fixpoint child_rows (es : list (option (nat * nat))) : list nat :=
  match es with [] => [] | Some (o, l) :: r => seq o l ++ child_rows r | None :: r => child_rows r end.

(** standard columns: column_data.cpp 208-233; list_column_data.cpp 155-211; array_column_data.cpp 99-114; struct_column_data.cpp
    149-164.  Values that were never written cannot be told apart from others by the code: reading them is [UB]. *)
Fixpoint append (c : col) (v : vec) (n : nat) : res col :=
  match c, v with
  | CLeaf d, VLeaf vs => if length vs <? n then Err UB else Ok (CLeaf (d ++ firstn n vs))
  | CList offs vd c', VList es v' =>
    if length es <? n then Err UB else
    let es := firstn n es in
    let count := total es in
    let child := if contiguous 0 es then v' else take v' (child_rows es) in
    do c2 <- (if 0 <? count then append c' child count else Ok c');
    Ok (CList (offs ++ offsets (max_entry c') es) (vd ++ map valid es) c2)
  | CArray size vd c', VArray _ m v' =>
    if length m <? n then Err UB else
    do c2 <- append c' v' (n * size);
    Ok (CArray size (vd ++ firstn n m) c2)
  | CStruct vd fs, VStruct m v' =>
    if length m <? n then Err UB else
    do c2 <- append fs v' n;
    Ok (CStruct (vd ++ firstn n m) c2)
  | CBoth a b, VBoth x y => do a2 <- append a x n; do b2 <- append b y n; Ok (CBoth a2 b2)
  | CEnd, VEnd => Ok CEnd
  | _, _ => Err UB
  end.

(** ** Scans *)
(** column_scan_state: the row (counted from the first of all row groups), for lists the offset reached, and the states of the
    columns below; [SNone]: never initialized. *)
Inductive state :=
| SLeaf (r : nat) | SList (r last_offset : nat) (t : state) | SArray (r : nat) (t : state) | SStruct (r : nat) (t : state)
| SBoth (a b : state) | SEnd | SNone.
Definition row_index (t : state) : nat := match t with SLeaf r | SList r _ _ => r | _ => 0 end.
(** list_column_data.cpp 27-34, column_data.cpp 73-80, array_column_data.cpp 28-36, struct_column_data.cpp 39-52; [s]: the first
    row of the group *)
Fixpoint init (c : col) (s : nat) : state :=
  match c with
  | CLeaf _ => SLeaf s | CList _ _ c' => SList s 0 (init c' s) | CArray _ _ c' => SArray s (init c' s)
  | CStruct _ fs => SStruct s (init fs s) | CBoth a b => SBoth (init a s) (init b s) | CEnd => SEnd
  end.
(** list_column_data.cpp 36-43 *)
Definition fetch_list_offset (offs : list nat) (i : nat) : res nat :=
  match nth_error offs i with Some o => Ok o | None => Err UB end.
(** list_column_data.cpp 45-61, column_data.cpp 82-89, array_column_data.cpp 38-60, struct_column_data.cpp 54-68 *)
Fixpoint init_at (c : col) (s r : nat) : res state :=
  match c with
  | CLeaf d => if r - s <? length d then Ok (SLeaf r) else Err Throw
  | CList offs _ c' =>
    if r =? 0 then Ok (init c s) else
    do o <- (if r =? s then Ok 0 else fetch_list_offset offs (r - 1 - s));
    do t <- (if o <? max_entry c' then init_at c' s (s + o) else Ok SNone);
    Ok (SList r o t)
  | CArray size _ c' =>
    if r =? 0 then Ok (init c s) else
    let count := (r - s) * size in
    do t <- (if count <? max_entry c' then init_at c' s (s + count) else Ok SNone);
    Ok (SArray r t)
  | CStruct _ fs => do t <- init_at fs s r; Ok (SStruct r t)
  | CBoth a b => do x <- init_at a s r; do y <- init_at b s r; Ok (SBoth x y)
  | CEnd => Ok SEnd
  end.

(** list_column_data.cpp 97-102; the row is null where the validity says so *)
Fixpoint entries (os : list nat) (m : list bool) (base current : nat) : list (option (nat * nat)) :=
  match os, m with
  | o :: os', b :: m' =>
    let len := o - current - base in
    (if b then Some (current, len) else None) :: entries os' m' base (current + len)
  | _, _ => []
  end.
(** 109-112: children that are structs or arrays are not checked *)
Definition checked (c : col) : bool := match c with CLeaf _ | CList _ _ _ => true | _ => false end.
(** [scan_count]: column_data.cpp 137-143 and 383-439, list_column_data.cpp 78-122, array_column_data.cpp 77-83,
    struct_column_data.cpp 108-121 *)
Fixpoint scan (c : col) (s : nat) (st : state) (n : nat) : res (vec * state) :=
  match c, st with
  | _, SNone => if n =? 0 then Ok (vempty c, SNone) else Err UB
  | CLeaf d, SLeaf r => let x := sub d (r - s) n in Ok (VLeaf x, SLeaf (r + length x))
  | CList offs vd c', SList r base t =>
    if n =? 0 then Ok (vempty c, st) else
    let os := sub offs (r - s) n in
    let m := sub vd (r - s) n in
    match os with
    | [] => Err UB
    | _ =>
      let last_entry := last os 0 in
      let count := last_entry - base in
      if 0 <? count then
        if checked c' && (s + max_entry c' <? row_index t + count) then Err Throw
        else do '(v, t') <- scan c' s t count; Ok (VList (entries os m base 0) v, SList (r + length os) last_entry t')
      else Ok (VList (entries os m base 0) (vempty c'), SList (r + length os) last_entry t)
    end
  | CArray size vd c', SArray r t =>
    let m := sub vd (r - s) n in
    do '(v, t') <- scan c' s t (n * size);
    Ok (VArray size m v, SArray (r + length m) t')
  | CStruct vd fs, SStruct r t =>
    let m := sub vd (r - s) n in
    do '(v, t') <- scan fs s t n;
    Ok (VStruct m v, SStruct (r + length m) t')
  | CBoth a b, SBoth x y =>
    do '(v, x') <- scan a s x n; do '(w, y') <- scan b s y n;
    Ok (VBoth v w, SBoth x' y')
  | CEnd, SEnd => Ok (VEnd, SEnd)
  | _, _ => Err UB
  end.

(** ** Rows by id *)
Definition vlen (v : vec) : nat :=
  match v with VLeaf d => length d | VList es _ => length es | VArray _ m _ => length m | VStruct m _ => length m | _ => 0 end.
(** vector_operations.cpp 806-826 *)
Fixpoint rebase (at_ : nat) (es : list (option (nat * nat))) : list (option (nat * nat)) :=
  match es with
  | [] => []
  | Some (_, l) :: r => Some (at_, l) :: rebase (at_ + l) r
  | None :: r => None :: rebase at_ r
  end.
(** vector_buffer.cpp 108-121, vector_operations.cpp 560-834: a vector copied behind the rows of another; of arrays only the
    validity (see [take]) *)
Fixpoint copy (v w : vec) : vec :=
  match v, w with
  | VLeaf d, VLeaf e => VLeaf (d ++ e)
  | VList es v', VList fs w' => VList (es ++ rebase (vlen v') fs) (copy v' (take w' (child_rows fs)))
  | VArray n m v', VArray _ m' _ => VArray n (m ++ m') v'
  | VStruct m v', VStruct m' w' => VStruct (m ++ m') (copy v' w')
  | VBoth a b, VBoth x y => VBoth (copy a x) (copy b y)
  | _, _ => v
  end.
(** [fetch_row]: column_data.cpp 272-279, list_column_data.cpp 243-277, array_column_data.cpp 142-164, struct_column_data.cpp
    217-230; rows are put behind those that are there (collection.cpp 121-143). *)
Fixpoint fetch_row (c : col) (s r : nat) (result : vec) : res vec :=
  match c, result with
  | CLeaf d, VLeaf vs => match nth_error d (r - s) with Some x => Ok (VLeaf (vs ++ [x])) | None => Err UB end
  | CList offs vd c', VList es v' =>
    do a <- (if r =? s then Ok 0 else fetch_list_offset offs (r - 1 - s));
    do b <- fetch_list_offset offs (r - s);
    match nth_error vd (r - s) with
    | None => Err UB
    | Some false => Ok (VList (es ++ [None]) v')
    | Some true =>
      if 0 <? b - a then
        do t <- init_at c' s (s + a);
        do '(w, _) <- scan c' s t (b - a);
        Ok (VList (es ++ [Some (vlen v', b - a)]) (copy v' w))
      else Ok (VList (es ++ [Some (vlen v', 0)]) v')
    end
  | CArray size vd c', VArray _ m v' =>
    match nth_error vd (r - s) with
    | None => Err UB
    | Some b =>
      do t <- init_at c' s (s + (r - s) * size);
      do '(w, _) <- scan c' s t size;
      Ok (VArray size (m ++ [b]) (copy v' w))
    end
  | CStruct vd fs, VStruct m v' =>
    match nth_error vd (r - s) with
    | None => Err UB
    | Some b => do v2 <- fetch_row fs s r v'; Ok (VStruct (m ++ [b]) v2)
    end
  | CBoth a b, VBoth x y => do x2 <- fetch_row a s r x; do y2 <- fetch_row b s r y; Ok (VBoth x2 y2)
  | CEnd, VEnd => Ok VEnd
  | _, _ => Err UB
  end.

(** A column filled with vectors; a column scanned in steps; rows fetched. *)
Fixpoint append_all (c : col) (bs : list (vec * nat)) : res col :=
  match bs with [] => Ok c | (v, n) :: r => do c' <- append c v n; append_all c' r end.
Fixpoint scan_all (c : col) (s : nat) (st : state) (ns : list nat) : res (list (vec * nat)) :=
  match ns with
  | [] => Ok []
  | n :: r => do '(v, st') <- scan c s st n; do vs <- scan_all c s st' r; Ok ((v, n) :: vs)
  end.
Fixpoint fetch_all (c : col) (s : nat) (ids : list nat) (result : vec) : res vec :=
  match ids with [] => Ok result | i :: r => do v <- fetch_row c s i result; fetch_all c s r v end.
