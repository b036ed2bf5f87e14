(** Model of updates of rows: components/table/update_segment.cpp and .hpp, column_data.cpp (update, fetch_row,
    check_predicate, scan), row_group.cpp:408-426, collection.cpp:265-287, data_table.cpp:261-296 and the table
    operator operator_update over one table.
    As in RowGrpModel a row of all columns is one element of [A]: data_table.cpp:285-290 updates all columns,
    and each column and its validity get the same ids in the same order.  Not modelled: the node of the old
    values, which is dropped at once (update_segment.cpp:316-334); strings, which the first update of a vector
    copies and later ones do not (update_segment.hpp:807); [scan_committed_range], which nothing calls. *)
From Verif Require Import Bytes Outcome VersionModel RowDelModel RowGrpModel.
Local Open Scope nat_scope.

Section Upd.
Context {A : Type}.
(** [std::sort] by key, update_segment.cpp:35-37: the indexes of the keys in some increasing order of the keys *)
Variable sort : list nat -> list nat.

(** update_info_t: pairs of [tuples] and [values] *)
Notation info := (list (nat * A)).
(** a table with the updates of the vectors of each group ([root_->info] of update_segment_t): group, vector *)
Record tab := { base : coll A; upds : nat -> nat -> option info }.
Definition new_tab : tab := {| base := new_table; upds := fun _ _ => None |}.

(** update_segment.cpp:12-49 [sort_indexing_vector] with the identity as [indexing].  Of equal keys the first
    in the order of [sort] is kept; [set_index(pos++, index)] never writes a place not yet read. *)
Fixpoint increasing (ids : list nat) : bool :=
  match ids with a :: (b :: _) as r => (a <? b) && increasing r | _ => true end.
Definition key (ids : list nat) (i : nat) : nat := nth i ids 0.
Fixpoint dedup (ids : list nat) (prev : nat) (l : list nat) : list nat :=
  match l with
  | [] => []
  | i :: r => if key ids prev =? key ids i then dedup ids i r else i :: dedup ids i r
  end.
Definition sort_index (ids : list nat) : list nat :=
  if increasing ids then seq 0 (length ids)
  else match sort ids with [] => [] | i :: r => i :: dedup ids i r end.

(** update_segment.hpp:800-850, the second half of [merge_update_loop_internal].  When the old rows run out
    first, :841-845 increments the bound of its loop and reads on after the ids. *)
Fixpoint merge_new (news : info) : info -> res info :=
  fix with_old (olds : info) : res info :=
    match news, olds with
    | [], _ => Ok olds
    | _, [] => Err UB
    | (i, a) :: n, (j, b) :: o =>
      if i =? j then do r <- merge_new n o; Ok ((i, a) :: r)
      else if i <? j then do r <- merge_new n olds; Ok ((i, a) :: r)
      else do r <- with_old o; Ok ((j, b) :: r)
    end.

(** update_segment.cpp:284-360 [update]; 430-449 and update_segment.hpp:658-670 for the first update of a
    vector.  [start] is the first row of the group. *)
Definition pick (l : list (nat * A)) (offset : nat) (i : nat) : list (nat * A) :=
  match nth_error l i with Some (id, a) => [(id - offset, a)] | None => [] end.
Definition seg_update (inf : nat -> option info) (start : nat) (l : list (nat * A)) : res (nat -> option info) :=
  let idx := sort_index (map fst l) in
  match idx with
  | [] => Ok inf
  | i0 :: _ =>
    let v := (key (map fst l) i0 - start) / CAP in
    let news := flat_map (pick l (start + v * CAP)) idx in
    do i' <- match inf v with Some olds => merge_new news olds | None => Ok news end;
    Ok (fun w => if w =? v then Some i' else inf w)
  end.

(** collection.cpp:265-287 [update], with row_group.cpp:408-426: ids of the same vector that follow each other
    are updated together.  An id of no row is an exception of the lookup. *)
Fixpoint run_in (lo hi : nat) (l : list (nat * A)) : list (nat * A) * list (nat * A) :=
  match l with
  | [] => ([], [])
  | (id, a) :: r => if (lo <=? id) && (id <? hi) then let '(x, y) := run_in lo hi r in ((id, a) :: x, y) else ([], l)
  end.
Definition set_upds (t : tab) (k : nat) (inf : nat -> option info) : tab :=
  {| base := base t; upds := fun j => if j =? k then inf else upds t j |}.
Fixpoint upd_loop (fuel : nat) (t : tab) (l : list (nat * A)) : res tab :=
  match fuel, l with
  | _, [] => Ok t
  | O, _ => Err Diverge
  | S f, (id, a) :: r =>
    do o <- lookup (groups (base t)) id;
    match o with
    | None => Err Throw
    | Some k =>
      match nth_error (groups (base t)) k with
      | None => Err UB
      | Some g =>
        let lo := g_start g + (id - g_start g) / CAP * CAP in
        let '(mine, others) := run_in lo (Nat.min (lo + CAP) (g_start g + g_count g)) r in
        do inf <- seg_update (upds t k) (g_start g) ((id, a) :: mine);
        upd_loop f (set_upds t k inf) others
      end
    end
  end.
(** data_table.cpp:261-296; no ids of transaction local rows *)
Definition update_rows (t : tab) (l : list (nat * A)) : res tab := upd_loop (length l) t l.

(** update_segment.hpp:720-731 [merge_update_info] over the rows of a vector *)
Definition over1 (o : option info) (rows : list A) : list A :=
  match o with
  | None => rows
  | Some i => if length i =? CAP then map snd i else fold_left (fun r p => upd r (fst p) (snd p)) i rows
  end.
(** update_segment.hpp:869-883: [std::lower_bound] on the sorted tuples *)
Fixpoint lower (row : nat) (i : info) : info := match i with [] => [] | (j, a) :: r => if j <? row then lower row r else i end.
Definition find_row (i : info) (row : nat) : option A :=
  match lower row i with (j, a) :: _ => if j =? row then Some a else None | [] => None end.
(** update_segment.cpp:362-371 *)
Definition upd_at (inf : nat -> option info) (r : nat) : option A :=
  match inf (r / CAP) with None => None | Some i => find_row i (r - r / CAP * CAP) end.

(** collection.cpp:121-143 [fetch] with column_data.cpp:271-279 [fetch_row] *)
Fixpoint u_fetch (t : tab) (ids : list nat) : res (list A) :=
  match ids with
  | [] => Ok []
  | id :: r =>
    do o <- lookup (groups (base t)) id;
    match o with
    | None => u_fetch t r
    | Some k =>
      match nth_error (groups (base t)) k with
      | None => Err UB
      | Some g => match nth_error (g_data g) (id - g_start g) with
                  | None => Err Throw
                  | Some a => do l <- u_fetch t r;
                              Ok (match upd_at (upds t k) (id - g_start g) with Some b => b | None => a end :: l)
                  end
      end
    end
  end.

(** column_data.cpp:253-260 [check_predicate]: the number of the row is used as the number of a vector to ask
    whether there are updates; update_segment.cpp:373-382 and update_segment.hpp:885-898 [check_row], false for
    a row not updated.  Not for a column of doubles, whose values are compared as strings (hpp:593-597). *)
Definition check_row (inf : nat -> option info) (f : A -> bool) (r : nat) : bool :=
  match inf (r / CAP) with
  | None => true
  | Some i => match find_row i (r - r / CAP * CAP) with Some a => f a | None => false end
  end.
Definition check_predicate (g : group A) (inf : nat -> option info) (f : A -> bool) (row : nat) : res bool :=
  if row <? g_start g then Err UB
  else match nth_error (g_data g) (row - g_start g) with
       | None => Err Throw
       | Some a => Ok (match inf row with Some _ => check_row inf f (row - g_start g) | None => f a end)
       end.
Fixpoint u_filter (g : group A) (inf : nat -> option info) (f : A -> bool) (ps : list nat) : res (list nat) :=
  match ps with
  | [] => Ok []
  | p :: r => do b <- check_predicate g inf f p; do x <- u_filter g inf f r; Ok (if b then p :: x else x)
  end.

(** the scan of RowGrpModel ([scan_group], [scan_next], [scan_loop], [select_chunk]) with the updates of each
    vector written over its rows (column_data.cpp:439-451) and [check_predicate] above; each vector is read into
    a new chunk *)
Fixpoint u_scan_group (fuel : nat) (g : group A) (inf : nat -> option info) (f : option (A -> bool)) (vec max cpos : nat) : res (option (@chunk A) * nat * nat) :=
  match fuel with
  | O => Err Diverge
  | S k =>
    if max <=? vec * CAP then Ok (None, vec, cpos)
    else
      let mc := Nat.min CAP (max - vec * CAP) in
      let s := rg_select (g_del g) vec mc in
      let vc := Nat.min CAP (length (g_data g) - vec * CAP) in
      let rows := over1 (inf vec) (firstn vc (skipn cpos (g_data g))) in
      if length s =? 0 then u_scan_group k g inf f (S vec) max cpos
      else match f with
           | None =>
             if length s =? mc then Ok (Some {| flat := true; sel := seq 0 mc; out := firstn mc rows |}, S vec, cpos + vc)
             else do o <- gather rows s; Ok (Some {| flat := false; sel := s; out := o |}, S vec, cpos + vc)
           | Some f' =>
             do s' <- u_filter g inf f' s;
             match s' with
             | [] => u_scan_group k g inf f (S vec) max cpos
             | _ => do o <- gather rows s'; Ok (Some {| flat := false; sel := s'; out := o |}, S vec, cpos + vc)
             end
           end
  end.
Fixpoint u_scan_next (fuel : nat) (t : tab) (f : option (A -> bool)) (st : sstate) : res (option (@chunk A) * sstate) :=
  match fuel with
  | O => Err Diverge
  | S n =>
    match s_group st with
    | None => Ok (None, st)
    | Some k =>
      match nth_error (groups (base t)) k with
      | None => Err UB
      | Some g =>
        do '(o, vec, cpos) <- u_scan_group (S (S (s_max st))) g (upds t k) f (s_vec st) (s_max st) (s_cpos st);
        match o with
        | Some ch => Ok (Some ch, {| s_group := Some k; s_vec := vec; s_max := s_max st; s_cpos := cpos |})
        | None => if max_row (base t) <=? g_start g + g_count g then Ok (None, no_group)
                  else u_scan_next n t f (next_group (base t) (S k) (skipn (S k) (groups (base t))))
        end
      end
    end
  end.
Definition u_scan_chunk (t : tab) (f : option (A -> bool)) (st : sstate) := u_scan_next (S (length (groups (base t)))) t f st.
Fixpoint u_scan_loop (fuel : nat) (t : tab) (f : option (A -> bool)) (st : sstate) : res (list A) :=
  match fuel with
  | O => Err Diverge
  | S n => do '(o, st') <- u_scan_chunk t f st;
           match o with None => Ok [] | Some ch => do l <- u_scan_loop n t f st'; Ok (out ch ++ l) end
  end.
Definition u_scan_all (t : tab) (f : option (A -> bool)) : res (list A) := u_scan_loop (S (total (base t))) t f (init_scan (base t)).
Definition u_select_chunk (t : tab) (f : option (A -> bool)) (limit : option nat) : res (@chunk A) :=
  match limit with
  | Some O => Ok {| flat := true; sel := []; out := [] |}
  | _ => do '(o, _) <- u_scan_chunk t f (init_scan (base t));
         match o with
         | None => Ok {| flat := true; sel := []; out := [] |}
         | Some ch => Ok {| flat := flat ch; sel := cut limit (sel ch); out := cut limit (out ch) |}
         end
  end.
Definition u_select (t : tab) (f : option (A -> bool)) (limit : option nat) : res (list A) :=
  do ch <- u_select_chunk t f limit; Ok (out ch).

(** What the rows read by a scan share with the table.  column_segment.cpp:459-473 [fixed_size_scan] makes the
    result of a scan of a whole vector point to the memory of the segment ([set_data], vector.hpp:117); a slice
    is a dictionary over it.  It is used when the columns of the group have no updates (column_data.cpp:58-71,
    standard_column_data.cpp:19-30).  Strings and the bits of the NULLs are copied to the result.
    [place r old new] is what the memory of row [r], which held [old], holds after [new] was written to the
    result: the values of [new] in the columns that are shared and those of [old] in the others. *)
Variable place : nat -> A -> A -> A.
Fixpoint write_rows (start : nat) (data : list A) (ws : list (nat * A)) : list A :=
  match ws with
  | [] => data
  | (p, b) :: r => write_rows start (match nth_error data p with Some a => firstn p data ++ place (start + p) a b :: skipn (S p) data | None => data end) r
  end.
Fixpoint map_nth {B} (k : nat) (h : B -> B) (l : list B) : list B :=
  match l, k with [], _ => [] | x :: r, O => h x :: r | x :: r, S k' => x :: map_nth k' h r end.
Definition set_data (g : group A) (d : list A) : group A := {| g_start := g_start g; g_data := d; g_del := g_del g |}.
(** the table after [ws], pairs of a position and a row, were written to the chunk of the first scan *)
Definition in_place (t : tab) (f : option (A -> bool)) (ws : list (nat * A)) : tab :=
  match u_scan_chunk t f (init_scan (base t)) with
  | Ok (Some _, st) =>
    match s_group st with
    | Some k =>
      {| base := with_groups (base t) (map_nth k (fun g =>
           if existsb (fun v => match upds t k v with Some _ => true | None => false end) (seq 0 (S (length (g_data g) / CAP))) then g
           else let vc := Nat.min CAP (length (g_data g) - (s_vec st - 1) * CAP) in
                set_data g (write_rows (g_start g) (g_data g) (map (fun w => (s_cpos st - vc + fst w, snd w)) ws))) (groups (base t)));
         upds := upds t |}
    | None => t
    end
  | _ => t
  end.

(** operator_update.cpp:92-140 over the output of the scan (create_plan_update.cpp:96-104, without a second
    collection, upsert or indexes; the operator gets no condition, so all rows of the chunk are updated).
    First the new values are written to the chunk of the scan ([execute], update_expression.cpp:208-210, and
    [set_value], vector.cpp:419-), then [data_table_t::update] is called with the chunk: the ids are the
    positions of a dictionary chunk and [chunk.row_ids] of a flat one, which a scan leaves zero.
    [set] is the effect of the list of assignments on one row. *)
Definition update_stmt (t : tab) (f : option (A -> bool)) (limit : option nat) (set : A -> A) : res tab :=
  do ch <- u_select_chunk t f limit;
  update_rows (in_place t f (combine (sel ch) (map set (out ch)))) (combine (if flat ch then repeat 0 (length (out ch)) else sel ch) (map set (out ch))).

Definition u_insert (t : tab) (chunks : list (list A)) : res tab :=
  do '(c, _) <- insert (base t) chunks; Ok {| base := c; upds := upds t |}.
Definition u_delete (t : tab) (ids : list nat) : res (tab * option nat) :=
  do '(c, o) <- delete_ids (base t) ids; Ok ({| base := c; upds := upds t |}, o).
End Upd.
Arguments tab : clear implicits.
