(** What a database should hold after a history of statements, and the histories for which the code delivers it. *)
From Coq Require Import List NArith ZArith Bool Permutation.
From Verif Require Import Bytes Outcome.
From Verif Require Import QueryModel CrashModel.
Import ListNotations.

(** ** Contents *)
(** The documents of a collection by their ids; no collection is [None]. *)
Notation content := (N -> option doc) (only parsing).
Definition get (l : list doc) : content := fun i => find (fun d => N.eqb (did d) i) l.
Definition is_some {A} (o : option A) : bool := match o with Some _ => true | None => false end.
Definition same (a b : option content) : Prop :=
  match a, b with
  | None, None => True
  | Some x, Some y => forall i, x i = y i
  | _, _ => False
  end.

(** Inserting: all documents of the batch or, when an id is taken, none. *)
Definition taken (k : content) (batch : list doc) : bool := existsb (fun d => is_some (k (did d))) batch.
Definition put_batch (batch : list doc) (k : content) : content :=
  if taken k batch then k
  else fun i => match get (rev batch) i with Some d => Some d | None => k i end.
(** Deleting the documents that satisfy a condition. *)
Definition drop_where (p : doc -> bool) (k : content) : content :=
  fun i => match k i with Some d => if p d then None else Some d | None => None end.

(** What the statement [r] makes of collection [c].  (Statements outside [statement_ok] below are not described.) *)
Definition eff (c : coll) (r : request) (o : option content) : option content :=
  if on r c then
    match r with
    | CreateColl _ => match o with Some k => Some k | None => Some (fun _ => None) end
    | DropColl _ => None
    | Insert _ batch => option_map (put_batch batch) o
    | Delete _ p _ => option_map (drop_where p) o
    | _ => o
    end
  else o.
Definition effs (c : coll) (h : list request) (o : option content) : option content := fold_left (fun o r => eff c r o) h o.
(** Collection [c] after the statements [h], from nothing. *)
Definition effects (h : list request) (c : coll) : option content := effs c h None.

(** What a client can see of collection [c]. *)
Definition visible (s : sys) (c : coll) : option content :=
  if has_coll (s_cat s) c then option_map get (s_store s c) else None.

(** ** Histories *)
(** [a] is [b] with some statements left out. *)
Inductive subseq {A} : list A -> list A -> Prop :=
| sub_nil : forall l, subseq [] l
| sub_skip : forall x a b, subseq a b -> subseq a (x :: b)
| sub_take : forall x a b, subseq a b -> subseq (x :: a) (x :: b).
Definition submitted (es : list event) : list request :=
  flat_map (fun e => match e with Submit r => [r] | _ => [] end) es.

(** Nothing is under way between the clients and the log. *)
Definition idle (s : sys) : bool :=
  match s_mail s, s_exq s, s_walq s with [], [], [] => true | _, _, _ => false end.

(** The statements that survive: no updates, no dropped databases, no limits, ids of a batch differ. *)
Fixpoint distinct (l : list N) : bool :=
  match l with [] => true | i :: l' => negb (existsb (N.eqb i) l') && distinct l' end.
Definition statement_ok (r : request) : bool :=
  match r with
  | CreateDb _ | CreateColl _ | DropColl _ => true
  | Insert _ batch => distinct (map did batch)
  | Delete _ _ limit => Z.eqb limit (-1)
  | DropDb _ | Update _ _ _ _ => false
  end.
Definition ddl (r : request) : bool :=
  match r with CreateDb _ | DropDb _ | CreateColl _ | DropColl _ => true | _ => false end.
(** No statement of [l] is about the collection that [r] creates or drops, and none creates or drops that of [r]. *)
Definition apart (l : list request) (r : request) : bool :=
  match target r with
  | None => true
  | Some c => forallb (fun x => negb (on x c) || (negb (ddl r) && negb (ddl x))) l
  end.
Fixpoint all_apart (l : list request) : bool :=
  match l with [] => true | r :: l' => apart l' r && all_apart l' end.

Definition in_mail (m : msg) : list request :=
  match m with Req r => [r] | Loop rs _ => rs | Done _ r _ => [r] | Success r _ _ => [r] end.
(** Statements without an answer. *)
Definition in_flight (s : sys) : list request :=
  flat_map in_mail (s_mail s) ++ map (fun x => snd (fst x)) (s_exq s) ++ map fst (s_walq s).
(** The restart has not read the whole log yet. *)
Definition by_replay (o : origin) : bool := match o with Replay _ => true | Client => false end.
Definition recovering (s : sys) : bool :=
  existsb (fun m => match m with Loop _ _ => true | Done o _ _ => by_replay o | _ => false end) (s_mail s)
  || existsb (fun x => by_replay (fst (fst x))) (s_exq s).
(** Records of the log behind the recovery point. *)
Definition pending (s : sys) : list request := skipn (d_wal (s_disk s)) (s_wal s).
Definition is_write (o : dop) : bool := match o with DWrite _ _ => true | _ => false end.
(** The disk agent is between two documents of one batch. *)
Definition in_batch (s : sys) : bool :=
  match s_last s, s_agent s with Some o, (_, o') :: _ => is_write o && is_write o' | _, _ => false end.

(** Crashes that do no harm.  During a restart only as long as it has not changed the disk; afterwards once its changes
    are on the disk; not between two documents of a batch; not before the first database is on the disk; and the records
    behind the recovery point do not mix the creation or removal of a collection with other statements on it. *)
Definition safe_crash (s : sys) : bool :=
  if recovering s then negb (is_some (s_last s))
  else negb (existsb fst (s_agent s)) && negb (in_batch s) &&
       match d_dbs (s_disk s), s_wal s with [], _ :: _ => false | _, _ => true end &&
       all_apart (pending s).
(** Clients wait for the end of the restart, do not use a collection while it is created or dropped, and create
    collections in databases they know. *)
Definition safe_submit (s : sys) (r : request) : bool :=
  negb (recovering s) && statement_ok r && apart (in_flight s) r &&
  match r with CreateColl c => mem_N (fst c) (c_dbs (s_cat s)) | _ => true end.
Definition allowed (s : sys) (e : event) : bool :=
  match e with
  | Submit r => safe_submit s r
  | Crash => safe_crash s
  | _ => true
  end.
Fixpoint guarded (s : sys) (es : list event) : bool :=
  match es with
  | [] => true
  | e :: es' => allowed s e && match step s e with Ok s' => guarded s' es' | Err _ => true end
  end.

(** ** Scripts *)
(** A statement from the client to the answer, each actor in turn. *)
Definition go (r : request) : list event := [Submit r; Disp; Exec; Disp; Log; Disp].
Definition agents (n : nat) : list event := repeat Agent n.
(** The process dies and starts again; [n] records are replayed. *)
Definition recover (n : nat) : list event := Crash :: repeat Disp (S n) ++ repeat Exec n ++ repeat Disp n.
(** The document with id [i] that a client finds in [c]. *)
Definition seen (s : sys) (c : coll) (i : N) : option doc := match visible s c with Some k => k i | None => None end.
