(** The schema of schemaless collections as the dispatcher keeps it: services/dispatcher/dispatcher.cpp 300-471 (a statement is
    finished), 515-545 [wal_success], 664-754 [update_catalog], 895-921 [get_schema]; services/collection/executor.cpp 221-258 and
    428-462, create_index.cpp 81-99; components/physical_plan/collection/operators/operator_insert.cpp 13-43,
    operator_delete.cpp 11-44, operator_update.cpp 21-89; components/physical_plan/base/operators/operator_write_data.cpp 47-119.
    A statement changes the documents, its end is told to the dispatcher, which writes it to the log; when that is done the
    catalogue is changed and the client gets the answer.  Many statements are under way at a time.
    Simplifications: one dispatcher; databases and tables with a declared schema are left out (CatModel, CrashModel), all
    collections are there from the start; a document is its fields with their types; what a statement selects is given by a
    function; messages of one actor to another come in the order they were sent, other than that in any order; statements that
    are read back from the log at a start are left out. *)
From Verif Require Import Bytes Outcome ByteOrd TrieModel CSchemaModel.
Local Open Scope nat_scope.

(** The fields of a document (keys of the top-level object) and the types of their values (operator_write_data.cpp 80-104
    [type_from_json]). *)
Notation doc := (list (list byte * ty)) (only parsing).
(** context_collection_t::document_storage: documents by id. *)
Notation store := (list (N * doc)) (only parsing).

(** operator_insert.cpp 26: [insert_or_assign]. *)
Definition assign (s : store) (d : N * doc) : store :=
  if existsb (fun e => (fst e =? fst d)%N) s then map (fun e => if (fst e =? fst d)%N then d else e) s else s ++ [d].

(** operator_write_data.hpp 22: the removed types, [map<pair<name, type>, count>]; operator_write_data.cpp 47-78, the order of
    names and then of types.  The extensions of two types made by [type_from_json] of one kind compare as equal. *)
Notation types := (list ((list byte * ty) * N)) (only parsing).
Definition before (a b : list byte * ty) : bool :=
  if beqb (fst a) (fst b) then (ty_kind (snd a) <? ty_kind (snd b))%N else bltb (fst a) (fst b).
Fixpoint bump (m : types) (x : list byte * ty) : types :=
  match m with
  | [] => [(x, 1%N)]
  | (y, n) :: r => if before y x then (y, n) :: bump r x else if before x y then (x, 1%N) :: m else (y, n + 1)%N :: r
  end.
(** operator_write_data.cpp 106-118 [update_types_from_document], for each removed document (operator_delete.cpp 33-42). *)
Definition types_of (ds : store) : types := fold_left (fun m d => fold_left bump (snd d) m) ds [].

(** Statements: an insert of documents; of the documents a query gives; a delete of the documents selected, found by a scan or
    by an index on disk; an update of documents. *)
Inductive stmt :=
| Insert (ds : store) | InsertFrom (ds : store)
| Delete (p : N * doc -> bool) | DeleteByIndex (p : N * doc -> bool)
| Update (g : N -> doc -> doc).

(** What the operators do to the documents, and the types told to the dispatcher (executor.cpp 446, 460): only a delete tells
    any, and not one that waited for an index (create_index.cpp 98). *)
Definition execute (s : store) (q : stmt) : store * types :=
  match q with
  | Insert ds | InsertFrom ds => (fold_left assign ds s, [])
  | Delete p => (filter (fun d => negb (p d)) s, types_of (filter p s))
  | DeleteByIndex p => (filter (fun d => negb (p d)) s, [])
  | Update g => (map (fun d => (fst d, g (fst d) (snd d))) s, [])
  end.

(** [result]: [update_result_] of the dispatcher, one for all sessions; [fin]: statements that are executed, on their way to the
    dispatcher; [logd]: statements the dispatcher sent to the log. *)
Record world := World { docs : N -> store; schemas : N -> cschema; result : types;
                        fin : list (N * stmt * types); logd : list (N * stmt) }.
Definition start : world := World (fun _ => []) (fun _ => empty_schema) [] [] [].
Definition upd {A} (f : N -> A) (i : N) (x : A) : N -> A := fun j => if (j =? i)%N then x else f j.

(** Calls of the schema one after the other; an exception ends the handler.  ([Freed], see CSchemaModel, goes on.) *)
Fixpoint calls (s : cschema) (h : list op) : res cschema :=
  match h with
  | [] => Ok s
  | o :: h' => match step s o with (_, Thrown) => Err Throw | (s1, _) => calls s1 h' end
  end.

(** dispatcher.cpp 702-740 and 741-750 [update_catalog]: an insert of documents, a delete; the others change nothing. *)
Definition appends (ds : store) : list op := flat_map (fun d => map (fun x => Append (fst x) (snd x)) (snd d)) ds.
Definition drops (m : types) : list op := map (fun e => Drop (fst (fst e)) (snd (fst e)) (snd e)) m.
Definition update_catalog (w : world) (c : N) (q : stmt) : res world :=
  match q with
  | Insert ds =>
    do s <- calls (schemas w c) (appends ds);
    Ok (World (docs w) (upd (schemas w) c s) (result w) (fin w) (logd w))
  | Delete _ | DeleteByIndex _ =>
    do s <- calls (schemas w c) (drops (result w));
    Ok (World (docs w) (upd (schemas w) c s) [] (fin w) (logd w))
  | InsertFrom _ | Update _ => Ok w
  end.

(** [Exec]: a statement is executed; [Finish]: the dispatcher learns that the next statement is (executor.cpp 238-257: types that
    are empty are not sent, dispatcher.cpp 466-471 keeps the others); [Logged]: the log has the next statement. *)
Inductive event := Exec (c : N) (q : stmt) | Finish | Logged.
Definition step (w : world) (e : event) : res world :=
  match e with
  | Exec c q =>
    let '(s, m) := execute (docs w c) q in
    Ok (World (upd (docs w) c s) (schemas w) (result w) (fin w ++ [(c, q, m)]) (logd w))
  | Finish =>
    match fin w with
    | [] => Ok w
    | (c, q, m) :: r => Ok (World (docs w) (schemas w) (match m with [] => result w | _ => m end) r (logd w ++ [(c, q)]))
    end
  | Logged =>
    match logd w with
    | [] => Ok w
    | (c, q) :: r => update_catalog (World (docs w) (schemas w) (result w) (fin w) r) c q
    end
  end.
Fixpoint run (w : world) (es : list event) : res world :=
  match es with [] => Ok w | e :: es' => do w' <- step w e; run w' es' end.

(** 895-921 *)
Definition get_schema (w : world) (c : N) : list (list byte * ty) := latest_types_struct (schemas w c).
