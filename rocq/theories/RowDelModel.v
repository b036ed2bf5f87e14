(** Model of row deletion and of the rows a scan returns in one row group:
    components/table/row_group.cpp:457-590.  Row numbers are relative to the start of the group (the caller
    subtracts it, :488); [current_version_] is a 64-bit number.  Rows are not locked. *)
From Verif Require Import Bytes Outcome VersionModel.
Local Open Scope nat_scope.

Record rgroup := { r_count : nat; mgr : option manager; ver : N }.
Definition fresh (n : nat) : rgroup := {| r_count := n; mgr := None; ver := 0 |}.

(** row_group.cpp:494-496 [delete_rows] of one vector and 498-504 [get_or_create_version_info]; the result
    [None] is the exception of the version manager *)
Definition rg_flush (g : rgroup) (i : nat) (rows : list nat) : res (rgroup * option nat) :=
  let v := ((ver g + 1) mod 2 ^ 64)%N in
  do '(m, n) <- delete_rows (match mgr g with Some m => m | None => [] end) i v rows;
  Ok ({| r_count := r_count g; mgr := Some m; ver := v |}, n).

(** :568-590 [version_delete_state::delete_row] and [flush], :482-492 [delete_rows].  [cur] is
    [current_chunk] ([None]: INVALID_INDEX), [buf] the first [count] entries of [rows], an array of 1024;
    [n] is [delete_count].  The asserts on the ids are checked as [UB]. *)
Definition flush_buf (g : rgroup) (cur : option nat) (buf : list nat) (n : nat) : res (rgroup * option nat) :=
  match cur, buf with
  | Some i, _ :: _ => do '(g', k) <- rg_flush g i buf; Ok (g', match k with Some k => Some (n + k) | None => None end)
  | _, _ => Ok (g, Some n)
  end.
Fixpoint del_loop (g : rgroup) (cur : option nat) (buf : list nat) (n : nat) (ids : list nat) : res (rgroup * option nat) :=
  match ids with
  | [] => flush_buf g cur buf n
  | r :: rs =>
    if negb (r <? r_count g) then Err UB
    else let i := r / CAP in
    let p := r - r / CAP * CAP in
    if match cur with Some c => c =? i | None => false end then
      if length buf <? CAP then del_loop g cur (buf ++ [p]) n rs else Err UB
    else
      do '(g', k) <- flush_buf g cur buf n;
      match k with
      | None => Ok (g', None)
      | Some k => del_loop g' (Some i) [p] k rs
      end
  end.
Definition rg_delete (g : rgroup) (ids : list nat) : res (rgroup * option nat) := del_loop g None [] 0 ids.

(** :519-526 [indexing_vector], the rows a scan of vector [i] keeps (:232-247) *)
Definition rg_select (g : rgroup) (i n : nat) : list nat :=
  match mgr g with None => seq 0 n | Some m => select {| tid := ver g; start_time := ver g |} m i n end.

(** :514-517 [calculate_size]: the whole group is counted as if it were vector 0; more than 1024 rows of a
    vector with version data are outside its arrays *)
Definition rg_size (g : rgroup) : res nat :=
  match mgr g with
  | None => Ok (r_count g)
  | Some m => match get_chunk m 0 with
              | Some (Vec v) =>
                if (same_inserted v && negb (any_deleted v)) || (r_count g <=? CAP) then Ok (length (rg_select g 0 (r_count g))) else Err UB
              | _ => Ok (length (rg_select g 0 (r_count g)))
              end
  end.

(** several calls one after the other; a call that throws leaves the group as it is then *)
Fixpoint rg_run (g : rgroup) (calls : list (list nat)) : res (rgroup * list (option nat)) :=
  match calls with
  | [] => Ok (g, [])
  | c :: cs => do '(g1, o) <- rg_delete g c; do '(g2, os) <- rg_run g1 cs; Ok (g2, o :: os)
  end.
