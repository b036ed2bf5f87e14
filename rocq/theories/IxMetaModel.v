(** The definitions of indexes on disk: services/disk/manager_disk.cpp 19-29, 190-194, 258-475, the operators that create
    and drop an index (components/physical_plan/base/operators/operator_add_index.cpp 19-58, operator_drop_index.cpp
    26-51), their answers (services/collection/create_index.cpp 32-75), the drop of a collection
    (services/memory_storage/memory_storage.cpp 267-281) and the start (services/dispatcher/dispatcher.cpp 163-177).
    Simplifications: one statement is finished before the next is sent, each in a session of its own; the engine of a
    collection is the list of its indexes with their names (its tables are C25-C27, the ids of live indexes are right by
    C27); what the indexes hold is C25 and C88; addresses are not reused; a file has fewer than 2^63 bytes; at a start the
    collections are those there were before (C09). *)
From Verif Require Import Bytes Outcome ByteOrd MsgpackModel TapeModel DocPackModel StmtModel.
Local Open Scope N_scope.

(** [node_create_index_t] (node_create_index.hpp 20-47): the type, the collection, the name, the keys. *)
Record def := { dtype : N; dcoll : coll; dname : list byte; dkeys : list key }.
Definition node_of (d : def) : node (doc * tree) := NCreateIndex (dtype d) (dcoll d) (dname d) (dkeys d).

(** * The file *)
(** A size as [write] and [memcpy] leave it: eight bytes, the lowest first. *)
Definition size_bytes (n : N) : list byte := rev (be 8 n).
Definition size_of_bytes (l : list byte) : N := unbe (rev l).

(** The buffer of [write_index_impl] (375-386).  There is no document in a definition. *)
Definition buffer (d : def) : res (list byte) :=
  do b <- ser_node (fun _ _ => Err UB) (node_of d); Ok (arr 1 ++ b).
(** The two writes, both at the end of the file. *)
Definition write_index (file : list byte) (d : def) : res (list byte) :=
  do b <- buffer d; Ok ((file ++ size_bytes (N.of_nat (length b))) ++ b).

(** [read_indexes_impl] (406-442) from one offset on: [file] is what follows the offset.  What a short read does not
    fill of the buffer is zero.  Fuel: each step takes eight bytes. *)
Definition fill (n : nat) (l : list byte) : list byte := firstn n l ++ repeat (byte_of_N 0) (n - length l).
Definition read_buffer (b : list byte) : res def :=
  match unpack b with
  | None => Err Throw
  | Some (m, _) =>
    do l <- via_array m; do x <- item l 0; do n <- read_node (fun n => n) true x;
    match n with
    | NCreateIndex t c s ks => Ok {| dtype := t; dcoll := c; dname := s; dkeys := ks |}
    | _ => Err UB
    end
  end.
Fixpoint read_indexes (fuel : nat) (file : list byte) : res (list def) :=
  match fuel with
  | O => Err Diverge
  | S f =>
    match take 8 file with
    | None => Ok []
    | Some (s, r) =>
      let n := N.to_nat (size_of_bytes s) in
      do d <- read_buffer (fill n r);
      do ds <- read_indexes f (skipn n r);
      Ok (d :: ds)
    end
  end.
Definition read_file (file : list byte) : res (list def) := read_indexes (S (length file)) file.

Fixpoint write_all (file : list byte) (ds : list def) : res (list byte) :=
  match ds with [] => Ok file | d :: r => do f <- write_index file d; write_all f r end.
(** [remove_index_impl] (444-458), [remove_all_indexes_from_collection_impl] (460-475): read, truncate, write again. *)
Definition remove_index (file name : list byte) : res (list byte) :=
  do ds <- read_file file; write_all [] (filter (fun d => negb (beqb (dname d) name)) ds).
Definition remove_of_collection (file c : list byte) : res (list byte) :=
  do ds <- read_file file; write_all [] (filter (fun d => negb (beqb (collection (dcoll d)) c)) ds).

(** * The state *)
(** A collection by its database and its name. *)
Notation full := (list byte * list byte)%type (only parsing).
Definition full_eqb (a b : full) : bool := beqb (fst a) (fst b) && beqb (snd a) (snd b).
Definition full_of (c : coll) : full := (database c, collection c).

(** An index in an engine; [ondisk]: [is_disk], an agent was set. *)
Record ix := { xname : list byte; xkeys : list key; ondisk : bool }.
(** [context_collection_t]: its address and its indexes. *)
Record context := { addr : nat; indexes : list ix }.
(** [index_agent_disk_t] (index_agent_disk.cpp 9-31): the pointer to the collection, [is_dropped_]. *)
Record agent := { pointer : nat; dropped : bool }.
Record store := {
  contexts : list (full * context);      (* collections_ of memory_storage_t *)
  agents : list (list byte * agent);     (* index_agents_ *)
  file : list byte;                      (* metafile_indexes_ *)
  next : nat                             (* the next address *)
}.
Definition start : store := {| contexts := []; agents := []; file := []; next := 0 |}.

Definition context_of (s : store) (c : full) : option context :=
  match find (fun p => full_eqb (fst p) c) (contexts s) with Some p => Some (snd p) | None => None end.
Definition agent_of (s : store) (n : list byte) : option agent :=
  match find (fun p => beqb (fst p) n) (agents s) with Some p => Some (snd p) | None => None end.
(** [has_index], [search_index] by name (index_engine.cpp 82-84, 218). *)
Definition index_of (x : context) (n : list byte) : option ix := find (fun i => beqb (xname i) n) (indexes x).

Definition with_indexes (s : store) (c : full) (f : list ix -> list ix) : store :=
  {| contexts := map (fun p => if full_eqb (fst p) c then (fst p, {| addr := addr (snd p); indexes := f (indexes (snd p)) |}) else p) (contexts s);
     agents := agents s; file := file s; next := next s |}.
Definition with_agents (s : store) (a : list (list byte * agent)) : store :=
  {| contexts := contexts s; agents := a; file := file s; next := next s |}.
Definition with_file (s : store) (f : list byte) : store :=
  {| contexts := contexts s; agents := agents s; file := f; next := next s |}.
Definition set_agent (l : list (list byte * agent)) (n : list byte) (a : agent) : list (list byte * agent) :=
  filter (fun p => negb (beqb (fst p) n)) l ++ [(n, a)].
Definition drop_agent (a : agent) : agent := {| pointer := pointer a; dropped := true |}.

(** * Statements *)
Inductive op :=
| CreateColl (c : full)
| DropColl (c : full)
| CreateIndex (d : def)
| DropIndex (c : full) (n : list byte)
| Restart.
Inductive answer := Done | Refused | NoAnswer.

(** [create_collection_] (memory_storage.cpp 235-265); the dispatcher refuses one that is there (dispatcher.cpp 267-272). *)
Definition create_collection (s : store) (c : full) : store * answer :=
  match context_of s c with
  | Some _ => (s, Refused)
  | None => ({| contexts := contexts s ++ [(c, {| addr := next s; indexes := [] |})]; agents := agents s; file := file s;
                next := S (next s) |}, Done)
  end.

(** [create_index_agent] (292-328): an agent that is there and not dropped refuses. *)
Definition create_agent (s : store) (d : def) (p : nat) : res (store * bool) :=
  match agent_of s (dname d) with
  | Some {| dropped := false |} => Ok (s, false)
  | _ =>
    do f <- write_index (file s) d;
    Ok (with_file (with_agents s (set_agent (agents s) (dname d) {| pointer := p; dropped := false |})) f, true)
  end.

(** [operator_add_index::on_execute_impl] (19-58), [create_index_finish] (32-60; the id of an index that was there already
    is INDEX_ID_UNDEFINED and [matching(id)] takes the end of the map for an element, index_engine.cpp 190, 291-297) and
    [create_index_finish_index_exist] (62-75).  Other types of indexes are not answered. *)
Definition set_on_disk (n : list byte) (l : list ix) : list ix :=
  map (fun i => if beqb (xname i) n then {| xname := xname i; xkeys := xkeys i; ondisk := true |} else i) l.
Definition create_index (s : store) (d : def) : res (store * answer) :=
  let c := full_of (dcoll d) in
  match context_of s c with
  | None => Ok (s, Refused)
  | Some x =>
    if negb (dtype d =? 0) then Ok (s, NoAnswer) else
    let exist := match index_of x (dname d) with Some _ => true | None => false end in
    let s1 := if exist then s
              else with_indexes s c (fun l => l ++ [{| xname := dname d; xkeys := dkeys d; ondisk := false |}]) in
    do '(s2, made) <- create_agent s1 d (addr x);
    if made then if exist then Err UB else Ok (with_indexes s2 c (set_on_disk (dname d)), Done)
    else Ok (s2, Refused)
  end.

(** [drop_index_agent] (330-347); the agent gets the message before the next statement. *)
Definition drop_on_disk (s : store) (n : list byte) : res store :=
  match agent_of s n with
  | None => Ok s
  | Some a =>
    do f <- remove_index (file s) n;
    Ok (with_file (with_agents s (set_agent (agents s) n (drop_agent a))) f)
  end.
(** [operator_drop_index::on_execute_impl] (26-51). *)
Definition drop_index (s : store) (c : full) (n : list byte) : res (store * answer) :=
  match context_of s c with
  | None => Ok (s, Refused)
  | Some x =>
    match index_of x n with
    | None => Ok (s, Refused)
    | Some i =>
      do s1 <- (if ondisk i then drop_on_disk s n else Ok s);
      Ok (with_indexes s1 c (filter (fun j => negb (beqb (xname j) n))), Done)
    end
  end.

(** [collection_name] of an agent (index_agent_disk.cpp 60) follows its pointer. *)
Definition collection_name (s : store) (a : agent) : res (list byte) :=
  match find (fun p => Nat.eqb (addr (snd p)) (pointer a)) (contexts s) with
  | Some p => Ok (snd (fst p))
  | None => Err UB
  end.
(** The loop of [flush] over all agents (266-270), and the messages to the matching ones (276-281). *)
Fixpoint drop_agents (s : store) (c : list byte) (l : list (list byte * agent)) : res (list (list byte * agent) * bool) :=
  match l with
  | [] => Ok ([], false)
  | (n, a) :: r =>
    do m <- collection_name s a;
    do '(r', any) <- drop_agents s c r;
    Ok (if beqb m c then ((n, drop_agent a) :: r', true) else ((n, a) :: r', any))
  end.
(** [drop_collection_] (267-281): the collection is freed; then [flush] (258-290), and after the last answer of an agent
    [drop_index_agent_success] (349-371). *)
Definition drop_collection (s : store) (c : full) : res (store * answer) :=
  match context_of s c with
  | None => Ok (s, Refused)
  | Some _ =>
    let s1 := {| contexts := filter (fun p => negb (full_eqb (fst p) c)) (contexts s); agents := agents s;
                 file := file s; next := next s |} in
    do '(l, any) <- drop_agents s1 (snd c) (agents s);
    if any then do f <- remove_of_collection (file s) (snd c); Ok (with_file (with_agents s1 l) f, Done)
    else Ok (s1, Done)
  end.

(** The start: collections anew, without indexes; [load_indexes_impl] (388-404) sends the statements of the file, each in
    a session of its own, so that [create_index_agent] writes them again. *)
Fixpoint load_contexts (l : list (full * context)) (a : nat) : list (full * context) :=
  match l with [] => [] | (c, _) :: r => (c, {| addr := a; indexes := [] |}) :: load_contexts r (S a) end.
Fixpoint load_indexes (s : store) (ds : list def) : res store :=
  match ds with [] => Ok s | d :: r => do '(s', _) <- create_index s d; load_indexes s' r end.
Definition restart (s : store) : res store :=
  do ds <- read_file (file s);
  load_indexes {| contexts := load_contexts (contexts s) (next s); agents := []; file := file s;
                  next := (next s + length (contexts s))%nat |} ds.

Definition step (s : store) (o : op) : res (store * answer) :=
  match o with
  | CreateColl c => Ok (create_collection s c)
  | DropColl c => drop_collection s c
  | CreateIndex d => create_index s d
  | DropIndex c n => drop_index s c n
  | Restart => do s' <- restart s; Ok (s', Done)
  end.
Fixpoint run (s : store) (l : list op) : res (store * list answer) :=
  match l with
  | [] => Ok (s, [])
  | o :: r => do '(s', a) <- step s o; do '(s'', rest) <- run s' r; Ok (s'', a :: rest)
  end.

(** What a crash leaves: the file between the writes of a statement.  Creating: before and after the size; dropping:
    from the truncated file on. *)
Definition crash_create (file : list byte) (d : def) : res (list (list byte)) :=
  do b <- buffer d;
  let f1 := file ++ size_bytes (N.of_nat (length b)) in Ok [file; f1; f1 ++ b].
Fixpoint crash_write_all (file : list byte) (ds : list def) : res (list (list byte)) :=
  match ds with
  | [] => Ok [file]
  | d :: r => do a <- crash_create file d; do f <- write_index file d; do b <- crash_write_all f r; Ok (a ++ b)
  end.
Definition crash_drop (file n : list byte) : res (list (list byte)) :=
  do ds <- read_file file; do l <- crash_write_all [] (filter (fun d => negb (beqb (dname d) n)) ds); Ok (file :: l).
