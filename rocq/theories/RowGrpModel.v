(** Model of the rows of a table: components/table/collection.cpp (append, fetch, delete_rows, scan,
    merge_storage), segment_tree.hpp (lookup of a row), row_group.cpp (scan, append), table_state.cpp:178-203,
    data_table.cpp:213-240 and the table operators full_scan, transfer_scan and operator_delete.
    A row of all columns is one element of [A]; the columns of a group are the list of the rows appended to
    it.  Row numbers are [nat] (they stay below 2^63, see the theorems), indexes of the binary search are
    64-bit numbers.  Locks are not modelled: one call at a time.  Updates of rows are in UpdModel. *)
From Verif Require Import Bytes Outcome VersionModel RowDelModel.
Local Open Scope nat_scope.

(** row_group_t, row_group.hpp and segment_tree.hpp:13-24.  [r_count (g_del g)] is [count]. *)
Record group (A : Type) := { g_start : nat; g_data : list A; g_del : rgroup }.
Arguments g_start {A}. Arguments g_data {A}. Arguments g_del {A}.
Definition g_count {A} (g : group A) : nat := r_count (g_del g).
(** collection_t, collection.hpp:95-106.  The list of segments is never loaded lazily: [load_segment] gives
    nothing. *)
Record coll (A : Type) := { gsize : nat; row_start : nat; total : nat; groups : list (group A) }.
Arguments gsize {A}. Arguments row_start {A}. Arguments total {A}. Arguments groups {A}.
(** table_append_state and row_group_append_state; groups are named by their index *)
Record astate := { a_first : nat; a_cur : nat; a_off : nat; a_total : nat }.

Section Rows.
Context {A : Type}.
Notation group := (group A).
Notation coll := (coll A).

(** data_table.cpp:10-19 and the defaults of collection.hpp:29-34 *)
Definition new_table : coll := {| gsize := CAP; row_start := 0; total := 0; groups := [] |}.

Definition with_groups (c : coll) (gs : list group) : coll :=
  {| gsize := gsize c; row_start := row_start c; total := total c; groups := gs |}.
Definition set_del (g : group) (d : rgroup) : group := {| g_start := g_start g; g_data := g_data g; g_del := d |}.
Definition set_count (g : group) (n : nat) : group :=
  set_del g {| r_count := n; mgr := mgr (g_del g); ver := ver (g_del g) |}.
Definition add_data (g : group) (l : list A) : group := {| g_start := g_start g; g_data := g_data g ++ l; g_del := g_del g |}.
Fixpoint upd {B} (l : list B) (i : nat) (x : B) : list B :=
  match l, i with [], _ => [] | _ :: r, O => x :: r | y :: r, S k => y :: upd r k x end.

(** collection.cpp:36-41 [append_row_group] *)
Definition new_group (c : coll) (s : nat) : coll :=
  with_groups c (groups c ++ [{| g_start := s; g_data := []; g_del := fresh 0 |}]).

(** collection.cpp:163-175 and row_group.cpp:390-398 [initialize_append] *)
Definition init_append (c : coll) : res (coll * astate) :=
  let c := match groups c with [] => new_group c (row_start c) | _ => c end in
  match nth_error (groups c) (length (groups c) - 1) with
  | None => Err UB
  | Some g => Ok (c, {| a_first := length (groups c) - 1; a_cur := length (groups c) - 1; a_off := g_count g; a_total := 0 |})
  end.

(** collection.cpp:177-212 [append], one turn of the loop and the loop.  [gsize - offset] is unsigned.  The
    chunk is sliced when a new group is started (:200), so what is left of it at the end is the last part:
    the second result. *)
Fixpoint append_loop (fuel : nat) (c : coll) (cur off : nat) (chunk : list A) : res (coll * nat * nat * list A) :=
  match fuel with
  | O => Err Diverge
  | S f =>
    match nth_error (groups c) cur with
    | None => Err UB
    | Some g =>
      let n := if off <=? gsize c then Nat.min (length chunk) (gsize c - off) else length chunk in
      let c1 := with_groups c (upd (groups c) cur (add_data g (firstn n chunk))) in
      if length chunk - n =? 0 then Ok (c1, cur, off + n, chunk)
      else let c2 := new_group c1 (g_start g + (off + n)) in
           append_loop f c2 (length (groups c2) - 1) 0 (skipn n chunk)
    end
  end.
Definition append (c : coll) (st : astate) (chunk : list A) : res (coll * astate * list A) :=
  do '(c', cur, off, rest) <- append_loop (S (S (length chunk))) c (a_cur st) (a_off st) chunk;
  Ok (c', {| a_first := a_first st; a_cur := cur; a_off := off; a_total := a_total st + length chunk |}, rest).

(** collection.cpp:214-228 [finalize_append] and row_group.cpp:381-388 [append_version_info] *)
Fixpoint fin_loop (size : nat) (gs : list group) (remaining : nat) : res (list group) :=
  if remaining =? 0 then Ok gs
  else match gs with
       | [] => Err UB
       | g :: r =>
         let n := if g_count g <=? size then Nat.min remaining (size - g_count g) else remaining in
         let g' := set_count g (if size <? g_count g + n then size else g_count g + n) in
         do r' <- fin_loop size r (remaining - n); Ok (g' :: r')
       end.
Definition finalize (c : coll) (st : astate) : res coll :=
  do gs <- fin_loop (gsize c) (skipn (a_first st) (groups c)) (a_total st);
  Ok {| gsize := gsize c; row_start := row_start c; total := total c + a_total st; groups := firstn (a_first st) (groups c) ++ gs |}.

(** one insertion: initialize_append, append for each chunk, finalize_append (operator_insert.cpp:16-26 with
    one chunk).  The rows that are left in the last chunk are what the operator copies to its output. *)
Fixpoint appends (c : coll) (st : astate) (chunks : list (list A)) : res (coll * astate * list A) :=
  match chunks with
  | [] => Ok (c, st, [])
  | ch :: r => do '(c', st', rest) <- append c st ch;
               match r with [] => Ok (c', st', rest) | _ => appends c' st' r end
  end.
Definition insert (c : coll) (chunks : list (list A)) : res (coll * list A) :=
  do '(c1, st) <- init_append c;
  do '(c2, st', rest) <- appends c1 st chunks;
  do c3 <- finalize c2 st';
  Ok (c3, rest).

(** collection.cpp:230-243 [merge_storage] and row_group.cpp:18-24 *)
Fixpoint move_groups (index : nat) (gs : list group) : list group :=
  match gs with
  | [] => []
  | g :: r => {| g_start := index; g_data := g_data g; g_del := g_del g |} :: move_groups (index + g_count g) r
  end.
Definition merge (c d : coll) : coll :=
  {| gsize := gsize c; row_start := row_start c; total := total c + total d;
     groups := groups c ++ move_groups (row_start c + total c) (groups d) |}.

(** segment_tree.hpp:186-212 [try_segment_index] *)
Fixpoint bsearch (fuel : nat) (gs : list group) (lower upper row : N) : res (option nat) :=
  match fuel with
  | O => Err Diverge
  | S f =>
    if (lower <=? upper)%N then
      let index := (((lower + upper) mod 2 ^ 64) / 2)%N in
      if (index <? N.of_nat (length gs))%N then
        match nth_error gs (N.to_nat index) with
        | None => Err UB
        | Some g =>
          if (row <? N.of_nat (g_start g))%N then bsearch f gs lower ((index + (2 ^ 64 - 1)) mod 2 ^ 64)%N row
          else if (N.of_nat (g_start g + g_count g) <=? row)%N then bsearch f gs ((index + 1) mod 2 ^ 64)%N upper row
          else Ok (Some (N.to_nat index))
        end
      else Err UB
    else Ok None
  end.
Definition lookup (gs : list group) (row : nat) : res (option nat) :=
  match gs with [] => Ok None | _ => bsearch (S (length gs)) gs 0 (N.of_nat (length gs - 1)) (N.of_nat row) end.

(** collection.cpp:121-143 [fetch] *)
Fixpoint fetch_rows (c : coll) (ids : list nat) : res (list A) :=
  match ids with
  | [] => Ok []
  | id :: r =>
    do o <- lookup (groups c) id;
    match o with
    | None => fetch_rows c r
    | Some k =>
      match nth_error (groups c) k with
      | None => Err UB
      | Some g => match nth_error (g_data g) (id - g_start g) with
                  | None => Err Throw
                  | Some a => do l <- fetch_rows c r; Ok (a :: l)
                  end
      end
    end
  end.

(** collection.cpp:245-263 [delete_rows]; the outer [None] is an exception *)
Definition in_group (g : group) (id : nat) : bool := (g_start g <=? id) && (id <? g_start g + g_count g).
Fixpoint run_of (g : group) (ids : list nat) : list nat * list nat :=
  match ids with
  | [] => ([], [])
  | id :: r => if in_group g id then let '(a, b) := run_of g r in (id :: a, b) else ([], ids)
  end.
Fixpoint del_rows (fuel : nat) (c : coll) (ids : list nat) (n : nat) : res (coll * option nat) :=
  match fuel, ids with
  | _, [] => Ok (c, Some n)
  | O, _ => Err Diverge
  | S f, id :: r =>
    do o <- lookup (groups c) id;
    match o with
    | None => Ok (c, None)
    | Some k =>
      match nth_error (groups c) k with
      | None => Err UB
      | Some g =>
        let '(mine, others) := run_of g r in
        do '(d, res) <- rg_delete (g_del g) (map (fun i => i - g_start g) (id :: mine));
        let c' := with_groups c (upd (groups c) k (set_del g d)) in
        match res with None => Ok (c', None) | Some m => del_rows f c' others (n + m) end
      end
    end
  end.
(** data_table.cpp:213-240; ids of rows of other transactions, above 4611686018427388000, do not occur *)
Definition delete_ids (c : coll) (ids : list nat) : res (coll * option nat) := del_rows (length ids) c ids 0.

(** a chunk of the result of a scan: [flat] or a selection of the positions [sel] of a vector *)
Record chunk := { flat : bool; sel : list nat; out : list A }.
(** collection_scan_state; [s_cpos] is the position of the columns' scan relative to the group *)
Record sstate := { s_group : option nat; s_vec : nat; s_max : nat; s_cpos : nat }.

Fixpoint gather (l : list A) (ps : list nat) : res (list A) :=
  match ps with
  | [] => Ok []
  | p :: r => match nth_error l p with None => Err UB | Some a => do x <- gather l r; Ok (a :: x) end
  end.

(** row_group.cpp:205-218 [filter_indexing] with column_data.cpp:253-260 [check_predicate]: the position in
    the vector is used as the number of the row; the columns' segments start at the group's start, and
    looking for a smaller row reads outside the list of segments.  [f] is the condition on the row. *)
Fixpoint filter_positions (g : group) (f : A -> bool) (ps : list nat) : res (list nat) :=
  match ps with
  | [] => Ok []
  | p :: r =>
    if p <? g_start g then Err UB
    else match nth_error (g_data g) (p - g_start g) with
         | None => Err Throw
         | Some a => do x <- filter_positions g f r; Ok (if f a then p :: x else x)
         end
  end.

(** row_group.cpp:220-333 [templated_scan<REGULAR>]: the next chunk of the group, if any.  Skipping a vector
    ([next_vector], 161-171) does not move the columns' scan: column_state.cpp [next] only visits the
    children. *)
Fixpoint scan_group (fuel : nat) (g : group) (f : option (A -> bool)) (vec max cpos : nat) : res (option chunk * nat * nat) :=
  match fuel with
  | O => Err Diverge
  | S k =>
    if max <=? vec * CAP then Ok (None, vec, cpos)
    else
      let mc := Nat.min CAP (max - vec * CAP) in
      let s := rg_select (g_del g) vec mc in
      let vc := Nat.min CAP (length (g_data g) - vec * CAP) in
      let rows := firstn vc (skipn cpos (g_data g)) in
      if length s =? 0 then scan_group k g f (S vec) max cpos
      else match f with
           | None =>
             if length s =? mc then Ok (Some {| flat := true; sel := seq 0 mc; out := firstn mc rows |}, S vec, cpos + vc)
             else do o <- gather rows s; Ok (Some {| flat := false; sel := s; out := o |}, S vec, cpos + vc)
           | Some f' =>
             do s' <- filter_positions g f' s;
             match s' with
             | [] => scan_group k g f (S vec) max cpos
             | _ => do o <- gather rows s'; Ok (Some {| flat := false; sel := s'; out := o |}, S vec, cpos + vc)
             end
           end
  end.

(** row_group.cpp:92-99 and 73-77: the number of rows of a group that the scan reads *)
Definition group_max (max_row : nat) (g : group) : nat := if max_row <? g_start g then 0 else Nat.min (g_count g) (max_row - g_start g).
Definition max_row (c : coll) : nat := row_start c + total c.
Definition at_group (k : nat) (m : nat) : sstate := {| s_group := Some k; s_vec := 0; s_max := m; s_cpos := 0 |}.
Definition no_group : sstate := {| s_group := None; s_vec := 0; s_max := 0; s_cpos := 0 |}.
(** collection.cpp:46-55 [initialize_scan]: the first group with rows, or the last one *)
Fixpoint first_group (c : coll) (k : nat) (gs : list group) : sstate :=
  match gs with
  | [] => no_group
  | g :: r => if group_max (max_row c) g =? 0 then match r with [] => at_group k 0 | _ => first_group c (S k) r end
              else at_group k (group_max (max_row c) g)
  end.
Definition init_scan (c : coll) : sstate := first_group c 0 (groups c).
(** table_state.cpp:188-200: the next group with rows *)
Fixpoint next_group (c : coll) (k : nat) (gs : list group) : sstate :=
  match gs with
  | [] => no_group
  | g :: r => if max_row c <=? g_start g then no_group
              else if group_max (max_row c) g =? 0 then next_group c (S k) r
              else at_group k (group_max (max_row c) g)
  end.
(** table_state.cpp:178-203 [scan] *)
Fixpoint scan_next (fuel : nat) (c : coll) (f : option (A -> bool)) (st : sstate) : res (option chunk * sstate) :=
  match fuel with
  | O => Err Diverge
  | S n =>
    match s_group st with
    | None => Ok (None, st)
    | Some k =>
      match nth_error (groups c) k with
      | None => Err UB
      | Some g =>
        do '(o, vec, cpos) <- scan_group (S (S (s_max st))) g f (s_vec st) (s_max st) (s_cpos st);
        match o with
        | Some ch => Ok (Some ch, {| s_group := Some k; s_vec := vec; s_max := s_max st; s_cpos := cpos |})
        | None => if max_row c <=? g_start g + g_count g then Ok (None, no_group)
                  else scan_next n c f (next_group c (S k) (skipn (S k) (groups c)))
        end
      end
    end
  end.
Definition scan_chunk (c : coll) (f : option (A -> bool)) (st : sstate) := scan_next (S (length (groups c))) c f st.
(** data_table.cpp:112 and table_state.cpp:178-203: [scan] called until it gives no rows, each time with a new
    chunk.  collection.cpp:87-110 does it with one chunk for all, see AliasModel and C77. *)
Fixpoint scan_loop (fuel : nat) (c : coll) (f : option (A -> bool)) (st : sstate) : res (list A) :=
  match fuel with
  | O => Err Diverge
  | S n => do '(o, st') <- scan_chunk c f st;
           match o with None => Ok [] | Some ch => do l <- scan_loop n c f st'; Ok (out ch ++ l) end
  end.
Definition scan_all (c : coll) (f : option (A -> bool)) : res (list A) := scan_loop (S (total c)) c f (init_scan c).

(** full_scan.cpp:60-86 and transfer_scan.cpp:11-33: one chunk of at most 1024 rows, then the limit
    ([None]: no limit).  Limit 0 gives no output. *)
Definition cut {B} (limit : option nat) (l : list B) : list B := match limit with None => l | Some n => firstn n l end.
Definition select_chunk (c : coll) (f : option (A -> bool)) (limit : option nat) : res chunk :=
  match limit with
  | Some O => Ok {| flat := true; sel := []; out := [] |}
  | _ => do '(o, _) <- scan_chunk c f (init_scan c);
         match o with
         | None => Ok {| flat := true; sel := []; out := [] |}
         | Some ch => Ok {| flat := flat ch; sel := cut limit (sel ch); out := cut limit (out ch) |}
         end
  end.
Definition select_rows (c : coll) (f : option (A -> bool)) (limit : option nat) : res (list A) :=
  do ch <- select_chunk c f limit; Ok (out ch).

(** operator_delete.cpp:57-92 over the output of the scan (create_plan_delete.cpp, without a second
    collection and without indexes): the ids are the selected positions of a dictionary chunk, and
    [chunk.row_ids] of a flat one, which a scan leaves zero (vector.cpp:87-96).  The reported number is the
    number of ids (executor.cpp, [delete_document_impl]). *)
Definition delete_stmt (c : coll) (f : option (A -> bool)) (limit : option nat) : res (coll * option nat) :=
  do ch <- select_chunk c f limit;
  let ids := if flat ch then repeat 0 (length (out ch)) else sel ch in
  match ids with
  | [] => Ok (c, Some 0)
  | _ => do '(c', r) <- delete_ids c ids;
         Ok (c', match r with Some _ => Some (length ids) | None => None end)
  end.
End Rows.
