(** Queries over documents: comparison of fields, predicates, scans, merging of results, inserting and deleting.
    Modelled from components/document/document.cpp, components/physical_plan/collection/operators/ (predicates, scan,
    merge, operator_match, operator_insert, operator_delete) and components/logical_plan/node_limit.cpp.
    Documents are flat: a field holds a scalar or something nested.  Floating point values and regular expressions are
    not modelled. *)
From Verif Require Import Bytes Outcome ByteOrd.
From Verif Require TapeModel.
From Verif Require Import IndexModel.
Local Open Scope Z_scope.

Notation ik := TapeModel.ik.

(** The value of a field: the scalar kinds of the tape (types.hpp 25-72); [DNest] is an object or an array. *)
Inductive dval := DNull | DBool (b : bool) | DInt (k : ik) (z : Z) | DStr (s : list byte) | DNest.

(** A document with its identity ([_id], document_id_t) and its other fields by name. *)
Record doc := { did : N; fields : list (list byte * dval) }.
(** [find_node_const] (document.cpp 385-413) for the name of a field. *)
Definition field (d : doc) (k : list byte) : option dval := lookup beqb k (fields d).

(** [element::get<T>] for an integer stored as [from] (element.cpp 125-497), see TapeModel.get_int: some pairs convert
    without a test, the others test the range. *)
Definition read_as (to from : ik) (z : Z) : res Z :=
  if TapeModel.direct to from then Ok (TapeModel.cast to z)
  else if TapeModel.signed from then
    if TapeModel.signed to then
      if (TapeModel.imax to <? z) || (z <? TapeModel.imin to) then Err Throw else Ok (TapeModel.cast to z)
    else if z <? 0 then Err Throw else Ok (TapeModel.cast to z)
  else if TapeModel.imax to <? z then Err Throw else Ok (TapeModel.cast to z).

(** [equals_] (document.cpp 950-959), for integers and booleans. *)
Definition three_way (a b : Z) : comparison := if a <? b then Lt else if b <? a then Gt else Eq.

(** [compare_] (document.cpp 961-1007): equal types, or two numbers, are compared as the type of the first; the
    conversion of [document_result] throws when the second is out of its range (impl/error.hpp 69-76).  NULL is after
    everything.  Everything else is equal. *)
Definition compare_ (a b : dval) : res comparison :=
  match a, b with
  | DInt k1 z1, DInt k2 z2 => do v1 <- read_as k1 k1 z1; do v2 <- read_as k1 k2 z2; Ok (three_way v1 v2)
  | DStr x, DStr y => Ok (bcmp x y)
  | DBool x, DBool y => Ok (three_way (Z.b2z x) (Z.b2z y))
  | DNull, DNull => Ok Eq
  | DNull, _ => Ok Gt
  | _, DNull => Ok Lt
  | _, _ => Ok Eq
  end.

(** [document_t::compare(pointer, value)] (192-219): no value is after everything, a missing field is after every
    value, a nested field is equal to everything. *)
Definition compare_value (d : doc) (k : list byte) (v : option dval) : res comparison :=
  match v with
  | None => Ok Lt
  | Some v =>
    match field d k with
    | None => Ok Gt
    | Some DNest => Ok Eq
    | Some x => compare_ x v
    end
  end.

(** [document_t::compare(pointer, document, pointer)] (165-190). *)
Definition compare_docs (d1 : doc) (k1 : list byte) (d2 : doc) (k2 : list byte) : res comparison :=
  match field d1 k1, field d2 k2 with
  | None, None => Ok Eq
  | Some _, None => Ok Lt
  | None, Some _ => Ok Gt
  | Some DNest, Some _ | Some _, Some DNest => Ok Eq
  | Some x, Some y => compare_ x y
  end.

(** [document_t::get_value] (661-680): nothing when absent or nested. *)
Definition get_value (d : doc) (k : list byte) : option dval :=
  match field d k with Some DNest => None | x => x end.

(** ** Predicates *)
(** The six comparisons, as tests of the three-way result (simple_predicate.cpp 58-189). *)
Definition test (c : cmp) (r : comparison) : bool :=
  match c, r with
  | CEq, Eq => true
  | CNe, Eq => false | CNe, _ => true
  | CGt, Gt => true
  | CGte, (Eq | Gt) => true
  | CLt, Lt => true
  | CLte, (Eq | Lt) => true
  | _, _ => false
  end.

(** [compare_expression_t], the shapes the predicates distinguish. *)
Inductive expr :=
| AllTrue | AllFalse
| Param (c : cmp) (k : list byte) (p : N)
| Keys (c : cmp) (k k' : list byte)
| And (es : list expr) | Or (es : list expr) | Not (es : list expr).

(** [storage_parameters]. *)
Notation params := (list (N * dval)) (only parsing).

(** [simple_predicate] (simple_predicate.cpp 13-237): evaluation of a predicate on a document and, in joins, a second
    one.  An empty [union_not] reads the front of an empty vector (36).  Not modelled: regular expressions (190-222),
    and the unknown comparison types, which accept everything (231-236). *)
Fixpoint eval (e : expr) (ps : params) (l : doc) (r : option doc) : res bool :=
  match e with
  | AllTrue => Ok true
  | AllFalse => Ok false
  | Param c k p =>
    match lookup N.eqb p ps with
    | None => Ok false
    | Some v => do x <- compare_value l k (Some v); Ok (test c x)
    end
  | Keys c k k' =>
    let v := match r with Some r => get_value r k' | None => get_value l k' end in
    do x <- compare_value l k v; Ok (test c x)
  | And es => (fix all es := match es with [] => Ok true | e :: es' => do b <- eval e ps l r; if b then all es' else Ok false end) es
  | Or es => (fix any es := match es with [] => Ok false | e :: es' => do b <- eval e ps l r; if b then Ok true else any es' end) es
  | Not es => match es with [] => Err UB | e :: _ => do b <- eval e ps l r; Ok (negb b) end
  end.

(** ** Scans *)
(** [full_scan::on_execute_impl] (full_scan.cpp 14-30) and [operator_match_t::on_execute_impl]
    (operator_match.cpp 12-33): the limit is checked before the loop and after each document that is appended.  A limit
    of 0 gives no output at all ([None]). *)
Fixpoint scan_loop (p : doc -> res bool) (limit : Z) (count : nat) (ds : list doc) : res (list doc) :=
  match ds with
  | [] => Ok []
  | d :: rest =>
    do b <- p d;
    if b then
      if limit_check limit (S count) then do out <- scan_loop p limit (S count) rest; Ok (d :: out) else Ok [d]
    else scan_loop p limit count rest
  end.
Definition full_scan (p : doc -> res bool) (limit : Z) (ds : list doc) : res (option (list doc)) :=
  if limit_check limit 0 then do out <- scan_loop p limit 0 ds; Ok (Some out) else Ok None.
(** [operator_match_t] reads the output of the operator below, which may be missing. *)
Definition operator_match (p : doc -> res bool) (limit : Z) (below : option (list doc)) : res (option (list doc)) :=
  match below with
  | Some ds => full_scan p limit ds
  | None => Ok None
  end.
(** [transfer_scan] (transfer_scan.cpp 11-24). *)
Definition transfer_scan (limit : Z) (ds : list doc) : res (option (list doc)) := full_scan (fun _ => Ok true) limit ds.

(** ** Merging results *)
Definition has_id (ds : list doc) (i : N) : bool := existsb (fun d => N.eqb (did d) i) ds.

(** [operator_and_t] (operator_and.cpp 9-33). *)
Fixpoint and_loop (right : list doc) (limit : Z) (count : nat) (left : list doc) : list doc :=
  match left with
  | [] => []
  | d :: rest =>
    if has_id right (did d) then
      if limit_check limit (S count) then d :: and_loop right limit (S count) rest else [d]
    else and_loop right limit count rest
  end.
Definition operator_and (limit : Z) (left right : option (list doc)) : option (list doc) :=
  if limit_check limit 0 then
    match left, right with Some l, Some r => Some (and_loop r limit 0 l) | _, _ => None end
  else None.

(** [operator_or_t] (operator_or.cpp 9-38): all of the left, then those of the right that are not in the output yet.
    The boolean says whether the limit was reached. *)
Fixpoint or_left (limit : Z) (out : list doc) (left : list doc) : list doc * bool :=
  match left with
  | [] => (out, false)
  | d :: rest => if limit_check limit (S (length out)) then or_left limit (out ++ [d]) rest else (out ++ [d], true)
  end.
Fixpoint or_right (limit : Z) (out : list doc) (right : list doc) : list doc :=
  match right with
  | [] => out
  | d :: rest =>
    if has_id out (did d) then or_right limit out rest
    else if limit_check limit (S (length out)) then or_right limit (out ++ [d]) rest else out ++ [d]
  end.
Definition operator_or (limit : Z) (left right : option (list doc)) : option (list doc) :=
  if limit_check limit 0 then
    match left, right with
    | Some l, Some r => let (out, full) := or_left limit [] l in Some (if full then out else or_right limit out r)
    | _, _ => None
    end
  else None.

(** [operator_not_t] (operator_not.cpp 9-32): over the documents of the collection. *)
Fixpoint not_loop (left : list doc) (limit : Z) (count : nat) (stored : list doc) : list doc :=
  match stored with
  | [] => []
  | d :: rest =>
    if has_id left (did d) then not_loop left limit count rest
    else if limit_check limit (S count) then d :: not_loop left limit (S count) rest else [d]
  end.
Definition operator_not (limit : Z) (stored : list doc) (left : option (list doc)) : option (list doc) :=
  if limit_check limit 0 then match left with Some l => Some (not_loop l limit 0 stored) | None => None end else None.

(** ** The documents of a collection *)
(** [document_storage_] (collection.hpp 35): a map by id in increasing order. *)
Fixpoint put (d : doc) (ds : list doc) : list doc :=
  match ds with
  | [] => [d]
  | x :: rest =>
    match N.compare (did d) (did x) with
    | Lt => d :: ds
    | Eq => d :: rest
    | Gt => x :: put d rest
    end
  end.
Definition erase_id (i : N) (ds : list doc) : list doc := filter (fun d => negb (N.eqb (did d) i)) ds.

(** [primary_key_scan] (primary_key_scan.cpp 10-23): one known id and nothing is passed on. *)
Definition primary_key_scan (stored batch : list doc) : option (list doc) :=
  if existsb (fun d => has_id stored (did d)) batch then None else Some batch.

(** [operator_insert] (operator_insert.cpp 12-42) without renaming of keys and without the indexes (IndexModel); on top of [primary_key_scan]
    (create_plan_insert.cpp 13-29).  The result: the storage and the ids reported as inserted. *)
Definition insert (stored batch : list doc) : list doc * list N :=
  match primary_key_scan stored batch with
  | None => (stored, [])
  | Some ds => (fold_left (fun s d => put d s) ds stored, map did ds)
  end.

(** [operator_delete] (operator_delete.cpp 31-43): the documents found by the scan below. *)
Definition delete_one (acc : list doc * list N) (d : doc) : list doc * list N :=
  let (s, ids) := acc in if has_id s (did d) then (erase_id (did d) s, ids ++ [did d]) else (s, ids).
Definition delete (stored found : list doc) : list doc * list N := fold_left delete_one found (stored, []).

(** [operator_delete] with a second source (13-30): a document of the first goes when some document of the second
    satisfies the predicate with it; the others of the second are then not tried. *)
Fixpoint any_match (p : doc -> res bool) (right : list doc) : res bool :=
  match right with
  | [] => Ok false
  | r :: rest => do b <- p r; if b then Ok true else any_match p rest
  end.
Fixpoint delete_join (p : doc -> doc -> res bool) (right left : list doc) (acc : list doc * list N) : res (list doc * list N) :=
  match left with
  | [] => Ok acc
  | l :: rest => do b <- any_match (p l) right; delete_join p right rest (if b then delete_one acc l else acc)
  end.
