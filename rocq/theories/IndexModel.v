(** Indexes: the ordered multimap of one index, the search through it, and the tables of the index engine.
    Modelled from components/index/single_field_index.cpp, components/index/index_engine.cpp,
    components/physical_plan/{collection,table}/operators/scan/index_scan.cpp,
    components/logical_plan/node_limit.cpp and components/physical_plan/base/operators/operator_{add,drop}_index.cpp. *)
From Verif Require Import Bytes Outcome ByteOrd LValModel.
Local Open Scope nat_scope.

(** An entry: the key and the row (or document) it belongs to ([index_value_t], index.hpp 9-13, reduced to an
    identity). *)
Notation entry := (lval * N)%type (only parsing).

(** [storage_] (single_field_index.hpp): [absl::btree_multimap] with [std::less], by its contract: the entries in key
    order; [insert] puts the entry after all entries whose key is not greater (single_field_index.cpp 32-34).
    With keys that are not ordered consistently the shape of the tree matters; that is not modelled. *)
Fixpoint insert_entry (k : lval) (v : N) (l : list entry) : list entry :=
  match l with
  | [] => [(k, v)]
  | e :: r => if vltb k (fst e) then (k, v) :: l else e :: insert_entry k v r
  end.

(** [storage_.lower_bound(k)]: the position of the first entry whose key is not less than [k]. *)
Fixpoint lower_bound (k : lval) (l : list entry) : nat :=
  match l with
  | [] => 0
  | e :: r => if vltb (fst e) k then S (lower_bound k r) else 0
  end.

(** [storage_.upper_bound(k)]: the position of the first entry whose key is greater than [k]. *)
Fixpoint upper_bound (k : lval) (l : list entry) : nat :=
  match l with
  | [] => 0
  | e :: r => if vltb k (fst e) then 0 else S (upper_bound k r)
  end.

(** Ranges of iterators. *)
Notation range := (nat * nat)%type (only parsing).
(** [find_impl], [lower_bound_impl], [upper_bound_impl] (single_field_index.cpp 46-59). *)
Definition find_range (k : lval) (l : list entry) : range := (lower_bound k l, upper_bound k l).
Definition lower_range (k : lval) (l : list entry) : range := (0, lower_bound k l).
Definition upper_range (k : lval) (l : list entry) : range := (upper_bound k l, length l).

(** [storage_.find(k)]: the first entry with an equivalent key, or end. *)
Definition find_pos (k : lval) (l : list entry) : option nat :=
  let i := lower_bound k l in
  match nth_error l i with
  | Some e => if vltb k (fst e) then None else Some i
  | None => None
  end.

(** [remove_impl] (single_field_index.cpp 42-44): [storage_.erase(storage_.find(key))]; erasing end is undefined
    behaviour. *)
Definition remove_key (k : lval) (l : list entry) : res (list entry) :=
  match find_pos k l with
  | Some i => Ok (firstn i l ++ skipn (S i) l)
  | None => Err UB
  end.

(** [compare_type] of an expression, the six the index serves. *)
Inductive cmp := CEq | CNe | CGt | CLt | CGte | CLte.

(** [search_range_by_index] (collection and table index_scan.cpp 9-33). *)
Definition search_ranges (c : cmp) (v : lval) (l : list entry) : list range :=
  match c with
  | CEq => [find_range v l]
  | CNe => [lower_range v l; upper_range v l]
  | CGt => [upper_range v l]
  | CLt => [lower_range v l]
  | CGte => [find_range v l; upper_range v l]
  | CLte => [lower_range v l; find_range v l]
  end.

(** Walking one range. *)
Definition slice (r : range) (l : list entry) : list entry := firstn (snd r - fst r) (skipn (fst r) l).

(** [limit_t::check] (node_limit.cpp 20). *)
Definition limit_check (limit : Z) (count : nat) : bool :=
  (limit =? -1)%Z || (Z.of_nat count <? limit)%Z.

(** The two nested loops of [search_by_index] (collection index_scan.cpp 35-51): [count] entries are already in the
    result. *)
Fixpoint walk (limit : Z) (count : nat) (es : list entry) : list entry :=
  match es with
  | [] => []
  | e :: r => if limit_check limit count then e :: walk limit (S count) r else []
  end.

(** The collection version returns when the limit is reached, so the ranges are walked as one sequence; the table
    version (35-69) only leaves the inner loop, but every later [check] fails too.  [on_execute_impl] produces no
    output for a limit of 0. *)
Definition search (c : cmp) (v : lval) (limit : Z) (l : list entry) : list entry :=
  walk limit 0 (flat_map (fun r => slice r l) (search_ranges c v l)).

(** The table version: one loop per range with a shared count. *)
Fixpoint walk_ranges (limit : Z) (count : nat) (rs : list (list entry)) : list entry :=
  match rs with
  | [] => []
  | r :: rest => let got := walk limit count r in got ++ walk_ranges limit (count + length got) rest
  end.
Definition search_table (c : cmp) (v : lval) (limit : Z) (l : list entry) : list entry :=
  walk_ranges limit 0 (map (fun r => slice r l) (search_ranges c v l)).

(** ** One index through a history of the collection *)
(** [insert_document]/[insert_row] and [delete_document]/[delete_row] (index_engine.cpp 216-283) for one index and
    rows that have the indexed field; [delete_document] passes only the key. *)
Inductive change := Insert (id : N) (k : lval) | Delete (id : N) (k : lval).

Definition apply (l : list entry) (c : change) : res (list entry) :=
  match c with
  | Insert id k => Ok (insert_entry k id l)
  | Delete _ k => remove_key k l
  end.

Definition apply_all (cs : list change) : res (list entry) :=
  fold_left (fun acc c => do l <- acc; apply l c) cs (Ok []).

(** ** The index engine *)
Notation name := (list byte) (only parsing).
Notation keys := (list (list byte)) (only parsing).

(** [index_t]: its address, name and keys. *)
Record index := { iaddr : nat; iname : name; ikeys : keys }.

Fixpoint keys_eqb (a b : keys) : bool :=
  match a, b with
  | [], [] => true
  | x :: a', y :: b' => beqb x y && keys_eqb a' b'
  | _, _ => false
  end.

(** Finite maps as association lists. *)
Fixpoint lookup {A B} (eqb : A -> A -> bool) (k : A) (m : list (A * B)) : option B :=
  match m with
  | [] => None
  | (k', v) :: r => if eqb k k' then Some v else lookup eqb k r
  end.
(** [emplace]: an existing key keeps its value. *)
Definition emplace {A B} (eqb : A -> A -> bool) (k : A) (v : B) (m : list (A * B)) : list (A * B) :=
  match lookup eqb k m with Some _ => m | None => m ++ [(k, v)] end.
Definition erase {A B} (eqb : A -> A -> bool) (k : A) (m : list (A * B)) : list (A * B) :=
  filter (fun p => negb (eqb k (fst p))) m.

(** [index_engine_t] (index_engine.hpp 47-62), without the table of disk addresses.  [heap] counts allocations:
    addresses are not reused. *)
Record engine := {
  storage : list index;                  (* storage_ *)
  mapper : list (keys * nat);            (* mapper_ *)
  ids : list (nat * nat);                (* index_to_mapper_ *)
  names : list (name * nat);             (* index_to_name_ *)
  heap : nat }.

Definition empty_engine : engine := {| storage := []; mapper := []; ids := []; names := []; heap := 0 |}.

(** [add_index] (index_engine.cpp 160-168). *)
Definition add_index (e : engine) (n : name) (ks : keys) : engine * nat :=
  let p := heap e in
  let new_id := length (ids e) in
  ({| storage := storage e ++ [{| iaddr := p; iname := n; ikeys := ks |}];
      mapper := emplace keys_eqb ks p (mapper e);
      ids := emplace Nat.eqb new_id p (ids e);
      names := emplace beqb n p (names e);
      heap := S p |}, new_id).

(** Following a pointer: undefined behaviour unless the index is still owned by [storage_]. *)
Definition deref (e : engine) (p : nat) : res index :=
  match find (fun i => Nat.eqb (iaddr i) p) (storage e) with Some i => Ok i | None => Err UB end.

(** [matching(name)], [matching(keys)] (index_engine.cpp 189-214): nullptr when absent. *)
Definition matching_name (e : engine) (n : name) : option nat := lookup beqb n (names e).
Definition matching_keys (e : engine) (ks : keys) : option nat := lookup keys_eqb ks (mapper e).
(** [matching(id)] (185): the iterator is dereferenced without a check. *)
Definition matching_id (e : engine) (i : nat) : res nat :=
  match lookup Nat.eqb i (ids e) with Some p => Ok p | None => Err UB end.

(** [drop_index] (174-183) of an index that is not on disk; [index_to_mapper_] is left alone (the erase is commented
    out). *)
Definition drop_index (e : engine) (p : nat) : res engine :=
  do i <- deref e p;
  Ok {| storage := filter (fun j => negb (Nat.eqb (iaddr j) p)) (storage e);
        mapper := erase keys_eqb (ikeys i) (mapper e);
        ids := ids e;
        names := erase beqb (iname i) (names e);
        heap := heap e |}.

(** [operator_add_index] (25-34): an index whose name is taken is not created. *)
Definition create (e : engine) (n : name) (ks : keys) : engine * option nat :=
  match matching_name e n with
  | Some _ => (e, None)
  | None => let (e', i) := add_index e n ks in (e', Some i)
  end.

(** [operator_drop_index] (31-46): an unknown name is an error and changes nothing. *)
Definition drop (e : engine) (n : name) : res (engine * bool) :=
  match matching_name e n with
  | None => Ok (e, false)
  | Some p => do e' <- drop_index e p; Ok (e', true)
  end.

(** A history of create and drop requests. *)
Inductive request := Create (n : name) (ks : keys) | Drop (n : name).
Definition serve (e : engine) (r : request) : res engine :=
  match r with
  | Create n ks => Ok (fst (create e n ks))
  | Drop n => do '(e', _) <- drop e n; Ok e'
  end.
Definition serve_all (rs : list request) : res engine :=
  fold_left (fun acc r => do e <- acc; serve e r) rs (Ok empty_engine).
