(** Changes on their way to the disk, crashes and restarts: the messages between the dispatcher, the storage in memory,
    the executor, the write-ahead log and the disk.  Modelled from services/dispatcher/dispatcher.cpp,
    services/memory_storage/memory_storage.cpp, services/collection/executor.cpp, services/wal/wal.cpp,
    services/disk/manager_disk.cpp, agent_disk.cpp and disk.cpp.

    What is simplified:
    - Names of databases and collections are numbers; only their equality is used.  Maps from collections are functions.
    - Collections hold documents (QueryModel); tables with columns and indexes are left out.
    - Each call of disk_t and each write to the log happens as a whole or not at all.  That the files give back what was
      written into them is the subject of C01-C08 and C30-C32; here the trees, the catalogue and the recovery point are
      what the calls made of them.
    - There is one dispatcher, one log and one disk agent (dispatchers_[0], agents_[0]; base_spaces.cpp 91-122).
      manager_disk_t, manager_wal_replicate_t and memory_storage_t run inside the thread that sends to them
      (enqueue_impl: manager_disk.cpp 166-170, memory_storage.cpp 206-211); the dispatcher, the executor, the log and the
      disk agent have mailboxes of their own, read in order, and take turns in any way. *)
From Coq Require Import List NArith ZArith Bool.
From Verif Require Import Bytes Outcome.
From Verif Require Import QueryModel.
Import ListNotations.

(** ** Names and maps *)
(** collection_full_name_t: a database and a collection. *)
Notation coll := (N * N)%type (only parsing).
Definition ceqb (a b : coll) : bool := N.eqb (fst a) (fst b) && N.eqb (snd a) (snd b).
Definition set_at {A} (m : coll -> A) (c : coll) (a : A) : coll -> A := fun x => if ceqb c x then a else m x.

(** ** Statements *)
(** A limit of -1 is none.  [p] is the predicate with its parameters; [f] gives the new fields of a document. *)
Inductive request :=
| CreateDb (d : N)
| DropDb (d : N)
| CreateColl (c : coll)
| DropColl (c : coll)
| Insert (c : coll) (batch : list doc)
| Delete (c : coll) (p : doc -> bool) (limit : Z)
| Update (c : coll) (p : doc -> bool) (limit : Z) (f : doc -> doc).

(** ** The disk *)
(** The commands of the disk agent (agent_disk.cpp 97-151), one for each call of disk_t. *)
Inductive dop :=
| DAppendDb (d : N)
| DAppendColl (c : coll)
| DRemoveColl (c : coll)
| DWrite (c : coll) (d : doc)
| DRemove (c : coll) (i : N)
| DFix (n : nat).

(** disk.hpp: the catalogue file (databases, and the collections listed in them; a map of sets by C07), the trees [db_]
    and the recovery point.  A tree is the list of its items in the order they were written. *)
Record disk := { d_dbs : list N; d_tabs : coll -> bool; d_trees : coll -> option (list doc); d_wal : nat }.
Definition empty_disk : disk := {| d_dbs := []; d_tabs := fun _ => false; d_trees := fun _ => None; d_wal := 0 |}.
Definition mem_N (d : N) (l : list N) : bool := existsb (N.eqb d) l.
(** metadata.cpp 33-42, 60-73. *)
Definition list_db (k : disk) (d : N) : disk :=
  {| d_dbs := if mem_N d (d_dbs k) then d_dbs k else d_dbs k ++ [d]; d_tabs := d_tabs k; d_trees := d_trees k; d_wal := d_wal k |}.
Definition list_coll (k : disk) (c : coll) : disk :=
  {| d_dbs := d_dbs k; d_tabs := if mem_N (fst c) (d_dbs k) then set_at (d_tabs k) c true else d_tabs k;
     d_trees := d_trees k; d_wal := d_wal k |}.
Definition set_tree (k : disk) (c : coll) (t : option (list doc)) : disk :=
  {| d_dbs := d_dbs k; d_tabs := d_tabs k; d_trees := set_at (d_trees k) c t; d_wal := d_wal k |}.
Definition tree_or_new (k : disk) (c : coll) : list doc := match d_trees k c with Some t => t | None => [] end.

Definition apply_op (k : disk) (o : dop) : res disk :=
  match o with
  (* disk.cpp 108 *)
  | DAppendDb d => Ok (list_db k d)
  (* disk.cpp 121-129 *)
  | DAppendColl c => Ok (list_coll (set_tree k c (Some (tree_or_new k c))) c)
  (* disk.cpp 131-135, metadata.cpp 75-89 *)
  | DRemoveColl c =>
    Ok {| d_dbs := d_dbs k; d_tabs := set_at (d_tabs k) c false; d_trees := set_at (d_trees k) c None; d_wal := d_wal k |}
  (* disk.cpp 44-60 *)
  | DWrite c d =>
    let k' := match d_trees k c with Some _ => k | None => list_coll (list_db k (fst c)) c end in
    Ok (set_tree k' c (Some (tree_or_new k c ++ [d])))
  (* disk.cpp 76-81: [at] throws for an unknown collection; every item with the id goes *)
  | DRemove c i =>
    match d_trees k c with
    | Some t => Ok (set_tree k c (Some (erase_id i t)))
    | None => Err Throw
    end
  (* disk.cpp 137-141 *)
  | DFix n => Ok {| d_dbs := d_dbs k; d_tabs := d_tabs k; d_trees := d_trees k; d_wal := n |}
  end.
(** disk.cpp 20-42: the trees of the listed collections are opened, no others. *)
Definition reopen (k : disk) : disk :=
  {| d_dbs := d_dbs k; d_tabs := d_tabs k; d_trees := fun c => if d_tabs k c then Some (tree_or_new k c) else None; d_wal := d_wal k |}.

(** ** Memory *)
(** executor.cpp 117-131 [create_documents]: emplace keeps the document that is there. *)
Definition load_docs (t : list doc) : list doc := fold_left (fun s d => if has_id s (did d) then s else put d s) t [].

(** The part of the catalogue in the dispatcher that is asked here (CatModel): namespaces and computing tables. *)
Record cat := { c_dbs : list N; c_tabs : coll -> bool }.

Definition found (o : option (list doc)) : list doc := match o with Some l => l | None => [] end.
(** operator_update.cpp 72-87: the documents keep their identity; each of them counts as changed. *)
Definition rewrite (f : doc -> doc) (hit l : list doc) : list doc :=
  map (fun d => if has_id hit (did d) then {| did := did d; fields := fields (f d) |} else d) l.

(** The executor on the documents of the collection, and what it sends to the disk: executor.cpp 388-396 (the documents of
    the output, QueryModel.insert), 447-455 (the ids of the removed), 352-366 (only the ids of the changed, as removed). *)
Definition work (r : request) (l : list doc) : res (list doc * list dop) :=
  match r with
  | Insert c batch =>
    Ok (fst (insert l batch), match primary_key_scan l batch with Some ds => map (DWrite c) ds | None => [] end)
  | Delete c p limit =>
    do o <- full_scan (fun d => Ok (p d)) limit l;
    let (l', ids) := delete l (found o) in Ok (l', map (DRemove c) ids)
  | Update c p limit f =>
    do o <- full_scan (fun d => Ok (p d)) limit l;
    Ok (rewrite f (found o) l, map (fun d => DRemove c (did d)) (found o))
  | _ => Ok (l, [])
  end.

(** ** The system *)
(** Who asked: a client, or the log during a restart ([session_t::address] is manager_wal_, dispatcher.cpp 202-237);
    [last] is last_wal_id_ (197). *)
Inductive origin := Client | Replay (last : nat).
(** The mailbox of the dispatcher: a statement, the records of the log ([load_from_wal_result]; what is left of its loop
    stays in front), the end of a statement ([execute_plan_finish]) with the commands manager_disk_t holds for its session
    (manager_disk.cpp 196-256), and the answer of the log ([wal_success]). *)
Inductive msg :=
| Req (r : request)
| Loop (rs : list request) (last : nat)
| Done (o : origin) (r : request) (ops : list dop)
| Success (r : request) (ops : list dop) (n : nat).

(** [s_exq]: mailbox of the executor; the flag says that the collection the plan points to is gone.  [s_agent]: mailbox of
    the disk agent; the flag (for statements only) says that the command comes from a replayed record.  [s_wal]: the log;
    the id of a record is its place, from 1.  [s_acked] and [s_last] (for statements only): what was answered with
    success, and the last command the disk agent carried out. *)
Record sys := {
  s_cat : cat; s_store : coll -> option (list doc);
  s_exq : list (origin * request * bool); s_mail : list msg; s_walq : list (request * list dop);
  s_wal : list request; s_agent : list (bool * dop); s_disk : disk;
  s_acked : list request; s_last : option dop }.

Definition with_cat (s : sys) (k : cat) : sys :=
  {| s_cat := k; s_store := s_store s; s_exq := s_exq s; s_mail := s_mail s; s_walq := s_walq s; s_wal := s_wal s;
     s_agent := s_agent s; s_disk := s_disk s; s_acked := s_acked s; s_last := s_last s |}.
Definition with_store (s : sys) (m : coll -> option (list doc)) : sys :=
  {| s_cat := s_cat s; s_store := m; s_exq := s_exq s; s_mail := s_mail s; s_walq := s_walq s; s_wal := s_wal s;
     s_agent := s_agent s; s_disk := s_disk s; s_acked := s_acked s; s_last := s_last s |}.
Definition with_exq (s : sys) (q : list (origin * request * bool)) : sys :=
  {| s_cat := s_cat s; s_store := s_store s; s_exq := q; s_mail := s_mail s; s_walq := s_walq s; s_wal := s_wal s;
     s_agent := s_agent s; s_disk := s_disk s; s_acked := s_acked s; s_last := s_last s |}.
Definition with_mail (s : sys) (q : list msg) : sys :=
  {| s_cat := s_cat s; s_store := s_store s; s_exq := s_exq s; s_mail := q; s_walq := s_walq s; s_wal := s_wal s;
     s_agent := s_agent s; s_disk := s_disk s; s_acked := s_acked s; s_last := s_last s |}.
Definition with_log (s : sys) (q : list (request * list dop)) (w : list request) : sys :=
  {| s_cat := s_cat s; s_store := s_store s; s_exq := s_exq s; s_mail := s_mail s; s_walq := q; s_wal := w;
     s_agent := s_agent s; s_disk := s_disk s; s_acked := s_acked s; s_last := s_last s |}.
Definition with_agent (s : sys) (q : list (bool * dop)) : sys :=
  {| s_cat := s_cat s; s_store := s_store s; s_exq := s_exq s; s_mail := s_mail s; s_walq := s_walq s; s_wal := s_wal s;
     s_agent := q; s_disk := s_disk s; s_acked := s_acked s; s_last := s_last s |}.
Definition with_disk (s : sys) (k : disk) (o : dop) : sys :=
  {| s_cat := s_cat s; s_store := s_store s; s_exq := s_exq s; s_mail := s_mail s; s_walq := s_walq s; s_wal := s_wal s;
     s_agent := s_agent s; s_disk := k; s_acked := s_acked s; s_last := Some o |}.
Definition answered (s : sys) (r : request) : sys :=
  {| s_cat := s_cat s; s_store := s_store s; s_exq := s_exq s; s_mail := s_mail s; s_walq := s_walq s; s_wal := s_wal s;
     s_agent := s_agent s; s_disk := s_disk s; s_acked := s_acked s ++ [r]; s_last := s_last s |}.
Definition tell (s : sys) (m : msg) : sys := with_mail s (s_mail s ++ [m]).

(** dispatcher.cpp 258-289, 564-587: which statements are carried out.  A collection can be created in a database that
    does not exist. *)
Definition has_coll (k : cat) (c : coll) : bool := mem_N (fst c) (c_dbs k) && c_tabs k c.
Definition check (k : cat) (r : request) : bool :=
  match r with
  | CreateDb d => negb (mem_N d (c_dbs k))
  | DropDb d => mem_N d (c_dbs k)
  | CreateColl c => negb (has_coll k c)
  | DropColl c | Insert c _ | Delete c _ _ | Update c _ _ _ => has_coll k c
  end.
(** dispatcher.cpp 664-701, 336; CatModel: creating a table fails without its namespace, dropping a namespace drops its
    tables. *)
Definition update_catalog (k : cat) (r : request) : cat :=
  match r with
  | CreateDb d => {| c_dbs := if mem_N d (c_dbs k) then c_dbs k else c_dbs k ++ [d]; c_tabs := c_tabs k |}
  | DropDb d => {| c_dbs := filter (fun x => negb (N.eqb d x)) (c_dbs k); c_tabs := fun c => c_tabs k c && negb (N.eqb d (fst c)) |}
  | CreateColl c => {| c_dbs := c_dbs k; c_tabs := if mem_N (fst c) (c_dbs k) then set_at (c_tabs k) c true else c_tabs k |}
  | DropColl c => {| c_dbs := c_dbs k; c_tabs := set_at (c_tabs k) c false |}
  | _ => k
  end.

Definition on (r : request) (c : coll) : bool :=
  match r with
  | CreateColl x | DropColl x | Insert x _ | Delete x _ _ | Update x _ _ _ => ceqb x c
  | _ => false
  end.

(** dispatcher.cpp 247-298 [execute_plan] with memory_storage.cpp 114-137, 213-314, run by the dispatcher: databases and
    collections at once, the rest through the executor, to which a pointer to the collection is sent (302-312).  A
    collection that is dropped is destroyed (279), also when plans in the mailbox of the executor point to it. *)
Definition dispatch (o : origin) (r : request) (s : sys) : res sys :=
  if check (s_cat s) r then
    match r with
    | CreateDb d => Ok (tell s (Done o r [DAppendDb d]))
    | DropDb d => Ok (tell s (Done o r []))
    | CreateColl c =>
      let m := match s_store s c with Some _ => s_store s | None => set_at (s_store s) c (Some []) end in
      Ok (tell (with_store s m) (Done o r [DAppendColl c]))
    | DropColl c =>
      match s_store s c with
      | Some _ =>
        let q := map (fun x => let '(o', r', gone) := x in (o', r', gone || on r' c)) (s_exq s) in
        Ok (tell (with_exq (with_store s (set_at (s_store s) c None)) q) (Done o r [DRemoveColl c]))
      | None => Err Throw
      end
    | Insert c _ | Delete c _ _ | Update c _ _ _ =>
      match s_store s c with
      | Some _ => Ok (with_exq s (s_exq s ++ [(o, r, false)]))
      | None => Err Throw
      end
    end
  else Ok s.

(** The flush of a session (manager_disk.cpp 258-290): its commands, then the recovery point. *)
Definition flush (replayed : bool) (ops : list dop) (n : nat) (s : sys) : sys :=
  with_agent s (s_agent s ++ map (pair replayed) (ops ++ [DFix n])).

(** One message of the dispatcher. *)
Definition disp (s : sys) : res sys :=
  match s_mail s with
  | [] => Ok s
  | Req r :: q => dispatch Client r (with_mail s q)
  (* dispatcher.cpp 198-244 *)
  | Loop [] _ :: q => Ok (with_mail s q)
  | Loop (r :: rs) last :: q => dispatch (Replay last) r (with_mail s (Loop rs last :: q))
  (* dispatcher.cpp 300-464; dropping a database (334-338) goes neither to the log nor to the disk *)
  | Done o r ops :: q =>
    let s := with_mail s q in
    match o, r with
    | Client, DropDb _ => Ok (answered (with_cat s (update_catalog (s_cat s) r)) r)
    | Replay _, DropDb _ => Ok (with_cat s (update_catalog (s_cat s) r))
    | Client, _ => Ok (with_log s (s_walq s ++ [(r, ops)]) (s_wal s))
    | Replay last, _ => Ok (flush true ops last (with_cat s (update_catalog (s_cat s) r)))
    end
  (* dispatcher.cpp 515-545 *)
  | Success r ops n :: q =>
    let s := with_mail s q in
    Ok (answered (flush false ops n (with_cat s (update_catalog (s_cat s) r))) r)
  end.

Definition target (r : request) : option coll :=
  match r with
  | CreateColl c | DropColl c | Insert c _ | Delete c _ _ | Update c _ _ _ => Some c
  | _ => None
  end.
(** One plan of the executor (executor.cpp 86-115, 164-236).  A plan on a collection that is gone reads freed memory. *)
Definition exec (s : sys) : res sys :=
  match s_exq s with
  | [] => Ok s
  | (o, r, gone) :: q =>
    let s := with_exq s q in
    match gone, target r with
    | true, _ => Err UB
    | false, Some c =>
      match s_store s c with
      | Some l => do x <- work r l; Ok (tell (with_store s (set_at (s_store s) c (Some (fst x)))) (Done o r (snd x)))
      | None => Err UB
      end
    | false, None => Ok s
    end
  end.

(** One record written to the log, and its answer (wal.cpp 207-351). *)
Definition log (s : sys) : sys :=
  match s_walq s with
  | [] => s
  | (r, ops) :: q => tell (with_log s q (s_wal s ++ [r])) (Success r ops (S (length (s_wal s))))
  end.

(** One command of the disk agent. *)
Definition agent (s : sys) : res sys :=
  match s_agent s with
  | [] => Ok s
  | (_, o) :: q => do k <- apply_op (s_disk s) o; Ok (with_disk (with_agent s q) k o)
  end.

(** A crash leaves the disk and the log.  The restart: agent_disk.cpp 85-95, dispatcher.cpp 143-245,
    memory_storage.cpp 171-204, wal.cpp 191-205.  Without a database on the disk nothing more is done (146-152). *)
Definition restart (s : sys) : sys :=
  let k := reopen (s_disk s) in
  let m := match d_dbs k with [] => fun _ => None | _ => fun c => option_map load_docs (d_trees k c) end in
  {| s_cat := {| c_dbs := d_dbs k; c_tabs := match d_dbs k with [] => fun _ => false | _ => d_tabs k end |};
     s_store := m; s_exq := [];
     s_mail := match d_dbs k with [] => [] | _ => [Loop (skipn (d_wal k) (s_wal s)) (length (s_wal s))] end;
     s_walq := []; s_wal := s_wal s; s_agent := []; s_disk := k; s_acked := s_acked s; s_last := None |}.

(** What can happen next: a client sends a statement, one of the actors reads its mailbox, the process dies. *)
Inductive event := Submit (r : request) | Disp | Exec | Log | Agent | Crash.
Definition step (s : sys) (e : event) : res sys :=
  match e with
  | Submit r => Ok (tell s (Req r))
  | Disp => disp s
  | Exec => exec s
  | Log => Ok (log s)
  | Agent => agent s
  | Crash => Ok (restart s)
  end.
Fixpoint run (s : sys) (es : list event) : res sys :=
  match es with
  | [] => Ok s
  | e :: es' => do s' <- step s e; run s' es'
  end.
(** An empty directory. *)
Definition fresh : sys :=
  {| s_cat := {| c_dbs := []; c_tabs := fun _ => false |}; s_store := fun _ => None; s_exq := []; s_mail := []; s_walq := [];
     s_wal := []; s_agent := []; s_disk := empty_disk; s_acked := []; s_last := None |}.
