(** Statements of several sessions on databases and collections, on their way through the dispatcher, the collections in memory,
    the executor and the log: services/dispatcher/dispatcher.cpp 247-298, 300-464, 515-546, 564-587, 664-701;
    services/memory_storage/memory_storage.cpp 114-137, 206-316.
    The dispatcher and the executor are actors, which take messages from a queue one at a time; the collections in memory are a
    supervisor, which handles a message in the thread of the sender (memory_storage.cpp 206-211).
    Simplifications: names are numbers; a collection is the address of its context, its documents are left out (CrashModel,
    ExecModel); collections have no declared columns; statements on documents name one collection, are not refused by the executor
    and do not change its computed schema (DSchModel); messages to the disk are left out (CrashModel). *)
From Verif Require Import Bytes Outcome.
Local Open Scope N_scope.

Inductive stmt :=
| CreateDb (d : N) | DropDb (d : N) | Create (d n : N) | Drop (d n : N)
| Read (d n : N)      (* a select: not logged *)
| Write (d n : N).    (* an insert, update or delete: logged *)
Inductive answer := Good | Exists | Missing.
Notation message := (N * stmt)%type (only parsing).   (* the session and its statement *)

Record state := {
  cdbs : list N;                     (* the catalogue of the dispatcher *)
  ccolls : list (N * N);
  memory : list ((N * N) * N);       (* collections_: the address of the context of each collection *)
  next : N;                          (* the next address *)
  exec : list (message * N);         (* messages for the executor, with the address of the context *)
  fin : list message;                (* messages for the dispatcher: the statement was executed *)
  wal : list message;                (* statements given to the log *)
  answers : list (message * answer)
}.
Definition start : state :=
  {| cdbs := []; ccolls := []; memory := []; next := 0; exec := []; fin := []; wal := []; answers := [] |}.

Definition has_db (d : N) (l : list N) : bool := existsb (N.eqb d) l.
Definition same (a b : N * N) : bool := (fst a =? fst b) && (snd a =? snd b).
Definition has_coll (c : N * N) (l : list (N * N)) : bool := existsb (same c) l.
Fixpoint context (c : N * N) (m : list ((N * N) * N)) : option N :=
  match m with [] => None | (x, p) :: r => if same c x then Some p else context c r end.

Definition say (st : state) (m : message) (a : answer) : state :=
  {| cdbs := cdbs st; ccolls := ccolls st; memory := memory st; next := next st; exec := exec st; fin := fin st; wal := wal st;
     answers := answers st ++ [(m, a)] |}.
Definition finish (st : state) (m : message) (mm : list ((N * N) * N)) (nx : N) : state :=
  {| cdbs := cdbs st; ccolls := ccolls st; memory := mm; next := nx; exec := exec st; fin := fin st ++ [m]; wal := wal st;
     answers := answers st |}.
(** dispatcher.cpp 564-587 *)
Definition coll_exists (st : state) (d n : N) : bool := has_db d (cdbs st) && has_coll (d, n) (ccolls st).

(** A statement arrives at the dispatcher, which looks in its catalogue (dispatcher.cpp 255-298) and hands it to the memory
    (memory_storage.cpp 114-137, 213-314).  [emplace] keeps a context that is there; [at] throws. *)
Definition arrive (st : state) (m : message) : res state :=
  match snd m with
  | CreateDb d => if has_db d (cdbs st) then Ok (say st m Exists) else Ok (finish st m (memory st) (next st))
  | DropDb d => if has_db d (cdbs st) then Ok (finish st m (memory st) (next st)) else Ok (say st m Missing)
  | Create d n =>
    if coll_exists st d n then Ok (say st m Exists)
    else match context (d, n) (memory st) with
         | Some _ => Ok (finish st m (memory st) (next st))
         | None => Ok (finish st m (((d, n), next st) :: memory st) (next st + 1))
         end
  | Drop d n =>
    if coll_exists st d n then
      match context (d, n) (memory st) with
      | Some _ => Ok (finish st m (filter (fun x => negb (same (d, n) (fst x))) (memory st)) (next st))
      | None => Err Throw
      end
    else Ok (say st m Missing)
  | Read d n | Write d n =>
    if coll_exists st d n then
      match context (d, n) (memory st) with
      | Some p =>
        Ok {| cdbs := cdbs st; ccolls := ccolls st; memory := memory st; next := next st; exec := exec st ++ [(m, p)];
              fin := fin st; wal := wal st; answers := answers st |}
      | None => Err Throw
      end
    else Ok (say st m Missing)
  end.

(** The executor uses the context at the address it was given; that of a dropped collection was freed (memory_storage.cpp 279). *)
Definition execute (st : state) : res state :=
  match exec st with
  | [] => Ok st
  | (m, p) :: r =>
    if existsb (N.eqb p) (map snd (memory st)) then
      Ok {| cdbs := cdbs st; ccolls := ccolls st; memory := memory st; next := next st; exec := r; fin := fin st ++ [m];
            wal := wal st; answers := answers st |}
    else Err UB
  end.

(** dispatcher.cpp 664-701 [update_catalog]; catalog.cpp 19-25, 89-101 *)
Definition update_catalog (st : state) (s : stmt) : list N * list (N * N) :=
  match s with
  | CreateDb d => (if has_db d (cdbs st) then cdbs st else d :: cdbs st, ccolls st)
  | DropDb d => (filter (fun x => negb (d =? x)) (cdbs st), filter (fun c => negb (d =? fst c)) (ccolls st))
  | Create d n => (cdbs st, if has_db d (cdbs st) && negb (has_coll (d, n) (ccolls st)) then (d, n) :: ccolls st else ccolls st)
  | Drop d n => (cdbs st, filter (fun c => negb (same (d, n) c)) (ccolls st))
  | Read _ _ | Write _ _ => (cdbs st, ccolls st)
  end.

(** dispatcher.cpp 300-464 [execute_plan_finish]: a database that was dropped and the result of a select are answered at once,
    the rest goes to the log first. *)
Definition finished (st : state) : res state :=
  match fin st with
  | [] => Ok st
  | m :: r =>
    match snd m with
    | DropDb _ =>
      let cat := update_catalog st (snd m) in
      Ok {| cdbs := fst cat; ccolls := snd cat; memory := memory st; next := next st; exec := exec st; fin := r; wal := wal st;
            answers := answers st ++ [(m, Good)] |}
    | Read _ _ =>
      Ok {| cdbs := cdbs st; ccolls := ccolls st; memory := memory st; next := next st; exec := exec st; fin := r; wal := wal st;
            answers := answers st ++ [(m, Good)] |}
    | _ =>
      Ok {| cdbs := cdbs st; ccolls := ccolls st; memory := memory st; next := next st; exec := exec st; fin := r;
            wal := wal st ++ [m]; answers := answers st |}
    end
  end.
(** dispatcher.cpp 515-546 [wal_success] *)
Definition logged (st : state) : res state :=
  match wal st with
  | [] => Ok st
  | m :: r =>
    let cat := update_catalog st (snd m) in
    Ok {| cdbs := fst cat; ccolls := snd cat; memory := memory st; next := next st; exec := exec st; fin := fin st; wal := r;
          answers := answers st ++ [(m, Good)] |}
  end.

Inductive event := Send (m : message) | Execute | Finished | Logged.
Definition step (st : state) (e : event) : res state :=
  match e with Send m => arrive st m | Execute => execute st | Finished => finished st | Logged => logged st end.
Fixpoint run (st : state) (es : list event) : res state :=
  match es with [] => Ok st | e :: r => do st' <- step st e; run st' r end.
