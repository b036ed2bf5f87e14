(** Model of row versions: components/table/row_version_manager.hpp/.cpp, and of row deletion in
    components/table/row_group.cpp.
    Arrays of 1024 ids are functions on positions; an access outside them is tested explicitly.  Locks are
    not modelled: every function below runs under [version_lock_], so calls are atomic.  [start] fields
    (only informative) are left out.  Ids are 64-bit numbers and only compared and copied. *)
From Verif Require Import Bytes Outcome.
Local Open Scope nat_scope.

(** indexing_vector.hpp:10 *)
Definition CAP : nat := 1024.
(** row_version_manager.hpp:16-17 *)
Definition TRANSACTION_ID_START : N := 4611686018427388000.
Definition NOT_DELETED_ID : N := (2 ^ 64 - 2)%N.

(** row_version_manager.hpp:19-26 *)
Record txn := { tid : N; start_time : N }.

(** row_version_manager.cpp:9-31 [use_inserted_version], [use_version] *)
Definition use_version (t : txn) (id : N) : bool := (id <? start_time t)%N || (id =? tid t)%N.

(** chunk_vector_info, hpp:97-146, and chunk_constant_info, hpp:69-95 *)
Record vinfo := { inserted : nat -> N; insert_id : N; same_inserted : bool; deleted : nat -> N; any_deleted : bool }.
Inductive chunk := Const (insert_id delete_id : N) | Vec (v : vinfo).
Definition manager := list (option chunk).

Definition fill (f : nat -> N) (s e : nat) (x : N) : nat -> N := fun i => if (s <=? i) && (i <? e) then x else f i.

(** cpp:100-110 *)
Definition new_vinfo : vinfo :=
  {| inserted := fun _ => 0%N; insert_id := 0; same_inserted := true; deleted := fun _ => NOT_DELETED_ID; any_deleted := false |}.

(** cpp:41-51 and 112-145 [templated_indexing_vector] for a transaction: the selected positions among the
    first [max_count].  Where the code returns [max_count] without filling the vector, all positions are
    meant (the caller then uses no selection). *)
Definition chunk_select (t : txn) (c : chunk) (max_count : nat) : list nat :=
  match c with
  | Const i d => if use_version t i && negb (use_version t d) then seq 0 max_count else []
  | Vec v =>
    if same_inserted v && negb (any_deleted v) then
      if use_version t (insert_id v) then seq 0 max_count else []
    else if same_inserted v then
      if negb (use_version t (insert_id v)) then []
      else filter (fun i => negb (use_version t (deleted v i))) (seq 0 max_count)
    else if negb (any_deleted v) then
      filter (fun i => use_version t (inserted v i)) (seq 0 max_count)
    else filter (fun i => use_version t (inserted v i) && negb (use_version t (deleted v i))) (seq 0 max_count)
  end.
(** cpp:71-73, 174-176 [fetch] *)
Definition chunk_fetch (t : txn) (c : chunk) (i : nat) : bool :=
  match c with
  | Const x d => use_version t x && negb (use_version t d)
  | Vec v => use_version t (inserted v i) && negb (use_version t (deleted v i))
  end.

(** cpp:178-194 [delete_rows]: [None] is the exception "Conflict on tuple deletion!"; what was written
    before it stays *)
Fixpoint delete_loop (t : N) (rows : list nat) (d : nat -> N) (n : nat) : (nat -> N) * option nat :=
  match rows with
  | [] => (d, Some n)
  | r :: rs =>
    if (d r =? t)%N then delete_loop t rs d n
    else if negb (d r =? NOT_DELETED_ID)%N then (d, None)
    else delete_loop t rs (fill d r (S r) t) (S n)
  end.
Definition v_delete (v : vinfo) (t : N) (rows : list nat) : vinfo * option nat :=
  let '(d, r) := delete_loop t rows (deleted v) 0 in
  ({| inserted := inserted v; insert_id := insert_id v; same_inserted := same_inserted v; deleted := d; any_deleted := true |}, r).
(** cpp:196-207 [commit_delete]; the rows are 0..count-1 if the info is consecutive *)
Definition v_commit_delete (v : vinfo) (c : N) (rows : list nat) : vinfo :=
  {| inserted := inserted v; insert_id := insert_id v; same_inserted := same_inserted v;
     deleted := fold_left (fun d r => fill d r (S r) c) rows (deleted v); any_deleted := any_deleted v |}.
(** cpp:209-219 [append] *)
Definition v_append (v : vinfo) (s e : nat) (id : N) : vinfo :=
  let '(ii, same) := if s =? 0 then (id, same_inserted v)
                     else if negb (insert_id v =? id)%N then (NOT_DELETED_ID, false) else (insert_id v, same_inserted v) in
  {| inserted := fill (inserted v) s e id; insert_id := ii; same_inserted := same; deleted := deleted v; any_deleted := any_deleted v |}.
(** cpp:221-228, 75-78 [commit_append]; the constant case asserts that the range is the whole vector *)
Definition c_commit_append (c : chunk) (id : N) (s e : nat) : res chunk :=
  match c with
  | Const i d => if (s =? 0) && (e =? CAP) then Ok (Const id d) else Err UB
  | Vec v => Ok (Vec {| inserted := fill (inserted v) s e id;
                        insert_id := if same_inserted v then id else insert_id v;
                        same_inserted := same_inserted v; deleted := deleted v; any_deleted := any_deleted v |})
  end.
(** cpp:89-97, 230-244 [cleanup]: the loop over a mixed vector starts at 1 *)
Definition c_cleanup (c : chunk) (lowest : N) : bool :=
  match c with
  | Const i d => (d =? NOT_DELETED_ID)%N && negb (lowest <? i)%N
  | Vec v => if any_deleted v then false
             else if negb (same_inserted v) then forallb (fun i => negb (lowest <? inserted v i)%N) (seq 1 (CAP - 1))
             else negb (lowest <? insert_id v)%N
  end.

(** cpp:291-296 [get_chunk_info] *)
Definition get_chunk (m : manager) (i : nat) : option chunk := match nth_error m i with Some o => o | None => None end.
(** cpp:298-308 [indexing_vector] *)
Definition select (t : txn) (m : manager) (i max_count : nat) : list nat :=
  match get_chunk m i with None => seq 0 max_count | Some c => chunk_select t c max_count end.
(** cpp:325-333 [fetch] *)
Definition fetch (t : txn) (m : manager) (row : nat) : bool :=
  match get_chunk m (row / CAP) with None => true | Some c => chunk_fetch t c (row - row / CAP * CAP) end.

(** cpp:335-343 [fill_vector_info] *)
Definition fill_info (m : manager) (i : nat) : manager := m ++ repeat None (S i - length m).
Fixpoint put (m : manager) (i : nat) (c : option chunk) : manager :=
  match m, i with [], _ => [] | _ :: r, O => c :: r | x :: r, S k => x :: put r k c end.

(** the part of a range of rows that lies in vector [i], cpp:354-361, 394-399 *)
Definition v_start (s i : nat) : nat := if i =? s / CAP then s - s / CAP * CAP else 0.
Definition v_end (e i : nat) : nat := if i =? (e - 1) / CAP then e - (e - 1) / CAP * CAP else CAP.

(** a loop over [n] vectors from vector [i] *)
Fixpoint vloop (n : nat) (one : manager -> nat -> res manager) (m : manager) (i : nat) : res manager :=
  match n with O => Ok m | S k => do m' <- one m i; vloop k one m' (S i) end.

(** cpp:345-384 [append_version_info], one vector and the loop.  Rows [s, e), [s < e]. *)
Definition append_one (m : manager) (id : N) (s e i : nat) : res manager :=
  if (v_start s i =? 0) && (v_end e i =? CAP) then Ok (put m i (Some (Const id NOT_DELETED_ID)))
  else match get_chunk m i with
       | None => Ok (put m i (Some (Vec (v_append new_vinfo (v_start s i) (v_end e i) id))))
       | Some (Vec v) => Ok (put m i (Some (Vec (v_append v (v_start s i) (v_end e i) id))))
       | Some (Const _ _) => Err Throw
       end.
Definition append_version_info (m : manager) (id : N) (s e : nat) : res manager :=
  let m := fill_info m ((e - 1) / CAP) in
  vloop (S ((e - 1) / CAP) - s / CAP) (fun m i => append_one m id s e i) m (s / CAP).

(** cpp:386-405 [commit_append]; a missing info is a null dereference *)
Definition commit_one (m : manager) (id : N) (s e i : nat) : res manager :=
  match get_chunk m i with
  | None => Err UB
  | Some c => do c' <- c_commit_append c id (v_start s i) (v_end e i); Ok (put m i (Some c'))
  end.
Definition commit_append (m : manager) (id : N) (s count : nat) : res manager :=
  if count =? 0 then Ok m
  else let e := s + count in vloop (S ((e - 1) / CAP) - s / CAP) (fun m i => commit_one m id s e i) m (s / CAP).

(** cpp:407-433 [cleanup_append] *)
Definition cleanup_one (m : manager) (lowest : N) (e i : nat) : res manager :=
  if negb (v_end e i =? CAP) then Ok m
  else match get_chunk m i with None => Ok m | Some c => Ok (if c_cleanup c lowest then put m i None else m) end.
Definition cleanup_append (m : manager) (lowest : N) (s count : nat) : res manager :=
  if count =? 0 then Ok m
  else let e := s + count in vloop (S ((e - 1) / CAP) - s / CAP) (fun m i => cleanup_one m lowest e i) m (s / CAP).

(** cpp:435-442 [revert_append] *)
Definition revert_append (m : manager) (start_row : nat) : manager :=
  let k := (start_row + (CAP - 1)) / CAP in firstn k m ++ repeat None (length m - k).

(** cpp:444-461 [vector_info] *)
Definition as_vector (o : option chunk) : vinfo :=
  match o with
  | None => new_vinfo
  | Some (Const i _) => {| inserted := fun _ => i; insert_id := i; same_inserted := true; deleted := fun _ => NOT_DELETED_ID; any_deleted := false |}
  | Some (Vec v) => v
  end.
(** cpp:463-468 [delete_rows] and 470-474 [commit_delete]; a row outside the arrays is out of bounds *)
Definition delete_rows (m : manager) (i : nat) (t : N) (rows : list nat) : res (manager * option nat) :=
  if forallb (fun r => r <? CAP) rows then
    let m := fill_info m i in
    let '(v, n) := v_delete (as_vector (get_chunk m i)) t rows in
    Ok (put m i (Some (Vec v)), n)
  else Err UB.
Definition commit_delete (m : manager) (i : nat) (c : N) (rows : list nat) : res manager :=
  if forallb (fun r => r <? CAP) rows then
    let m := fill_info m i in Ok (put m i (Some (Vec (v_commit_delete (as_vector (get_chunk m i)) c rows))))
  else Err UB.

(** cpp:85-87, 248-259 and 278-293 [commited_deleted_count] *)
Definition c_deleted_count (c : chunk) (max_count : nat) : nat :=
  match c with
  | Const i d => if (d <? TRANSACTION_ID_START)%N then max_count else 0
  | Vec v => if any_deleted v then length (filter (fun i => (deleted v i <? TRANSACTION_ID_START)%N) (seq 0 max_count)) else 0
  end.
Fixpoint deleted_loop (n : nat) (m : manager) (count i : nat) : nat :=
  match n with
  | O => 0
  | S k => match get_chunk m i with None => 0 | Some c => c_deleted_count c (Nat.min CAP (count - i * CAP)) end + deleted_loop k m count (S i)
  end.
Definition committed_deleted_count (m : manager) (count : nat) : nat := deleted_loop ((count + (CAP - 1)) / CAP) m count 0.
