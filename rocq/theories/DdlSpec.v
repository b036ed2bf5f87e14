(** Statements on databases and collections, one after the other. *)
From Verif Require Import Bytes Outcome DdlModel.
From Coq Require Import Permutation.
Local Open Scope N_scope.

(** The databases and the collections there are. *)
Record world := World { dbs : list N; colls : list (N * N) }.
Definition nothing : world := World [] [].
Definition pair_dec (a b : N * N) : {a = b} + {a <> b}.
Proof. decide equality; apply N.eq_dec. Defined.
Definition serve (w : world) (s : stmt) : world * answer :=
  match s with
  | CreateDb d => if in_dec N.eq_dec d (dbs w) then (w, Exists) else (World (d :: dbs w) (colls w), Good)
  | DropDb d =>
    if in_dec N.eq_dec d (dbs w)
    then (World (remove N.eq_dec d (dbs w)) (filter (fun c => if N.eq_dec (fst c) d then false else true) (colls w)), Good)
    else (w, Missing)
  | Create d n =>
    if in_dec N.eq_dec d (dbs w)
    then if in_dec pair_dec (d, n) (colls w) then (w, Exists) else (World (dbs w) ((d, n) :: colls w), Good)
    else (w, Missing)
  | Drop d n =>
    if in_dec pair_dec (d, n) (colls w) then (World (dbs w) (remove pair_dec (d, n) (colls w)), Good) else (w, Missing)
  | Read d n | Write d n => if in_dec pair_dec (d, n) (colls w) then (w, Good) else (w, Missing)
  end.
Fixpoint serial (w : world) (ms : list (N * stmt)) : world * list ((N * stmt) * answer) :=
  match ms with
  | [] => (w, [])
  | m :: r => let (w', a) := serve w (snd m) in let (w2, as_) := serial w' r in (w2, (m, a) :: as_)
  end.
Fixpoint sends (es : list event) : list (N * stmt) :=
  match es with [] => [] | Send m :: r => m :: sends r | _ :: r => sends r end.

(** Statements sent and not answered. *)
Definition in_flight (st : state) : list (N * stmt) := map fst (exec st) ++ fin st ++ wal st.

(** Two statements get in each other's way: one of them creates or drops what the other is about. *)
Definition db_of (s : stmt) : N :=
  match s with CreateDb d | DropDb d | Create d _ | Drop d _ | Read d _ | Write d _ => d end.
Definition coll_of (s : stmt) : option N :=
  match s with CreateDb _ | DropDb _ => None | Create _ n | Drop _ n | Read _ n | Write _ n => Some n end.
Definition ddl (s : stmt) : Prop := match s with Read _ _ | Write _ _ => False | _ => True end.
Definition conflict (a b : stmt) : Prop :=
  db_of a = db_of b /\
  (coll_of a = None \/ coll_of b = None \/ (coll_of a = coll_of b /\ (ddl a \/ ddl b))).
(** A collection is created in a database that is there; a database is dropped when it has no collections. *)
Definition sane (w : world) (s : stmt) : Prop :=
  match s with
  | Create d _ => In d (dbs w)
  | DropDb d => forall n, ~ In (d, n) (colls w)
  | _ => True
  end.
(** Sessions wait for the answers of statements that get in the way of theirs. *)
Fixpoint polite (st : state) (w : world) (es : list event) : Prop :=
  match es with
  | [] => True
  | e :: r =>
    (match e with Send m => (forall x, In x (in_flight st) -> ~ conflict (snd x) (snd m)) /\ sane w (snd m) | _ => True end) /\
    (match step st e with
     | Ok st' => polite st' (match e with Send m => fst (serve w (snd m)) | _ => w end) r
     | Err _ => True
     end)
  end.
(** What is there according to the catalogue and to the memory. *)
Definition agrees (st : state) (w : world) : Prop :=
  (forall d, In d (cdbs st) <-> In d (dbs w)) /\ (forall c, In c (ccolls st) <-> In c (colls w)) /\
  (forall c, In c (map fst (memory st)) <-> In c (colls w)).
(** No collection is there twice, and no two collections share a context. *)
Definition distinct (st : state) : Prop := NoDup (map fst (memory st)) /\ NoDup (map snd (memory st)).
(** The executor, the dispatcher and the log go on with what they were given. *)
Definition drain (n : nat) : list event := repeat Execute n ++ repeat Finished n ++ repeat Logged n.
