(** Calls of a client from several threads (integration/cpp/wrapper_dispatcher.cpp, impl/session_blocker.cpp).
    Every thread that makes a call registers its session, sends a request and waits for the answer on one condition
    variable; the answers of all calls go through the two fields [cursor_store_] and [size_store_].
    One event is one step of one thread that others cannot interrupt, in any order.  [blocker_] has its own mutex, so each
    of its functions is one step; what runs under [output_mtx_] is one step, except that a waiting thread gives up the mutex
    when it goes to sleep.
    Simplifications: an answer is named by the number of the request it answers.  The other side answers every request
    once, in any order; it is not modelled.  What [execute_sql] does before sending and the output to stderr are left out. *)
From Coq Require Export NArith List Bool Lia.
Export ListNotations.

Notation thread := nat (only parsing).
Notation session := N (only parsing).
Notation request := N (only parsing).

(** What is waited for: a cursor ([wait_result], 362-373), a size ([wait_size], 375-380), nothing ([wait], 382-386). *)
Inductive kind := Cursor | Size | Load.
Record call := { cs : session; ck : kind; cr : request }.

(** Where a thread is. *)
Inductive pc :=
| Idle
| Init (c : call)       (* in [init] (353-360), before [set_value] *)
| Approved (c : call)   (* the session is registered, the request is not sent *)
| Trying (c : call)     (* in [cv_.wait]: wants [output_mtx_] to look at the flag *)
| Holding (c : call)    (* in [cv_.wait]: has seen the flag down and still holds [output_mtx_] *)
| Asleep (c : call).

Inductive outcome :=
| Answer (t : thread) (k : kind) (own got : request)   (* the call [own] returned the answer to [got] *)
| Crash (t : thread).                                  (* a null pointer was followed, or [at] threw *)

Record state := {
  pcs : thread -> pc;
  flags : session -> option bool;      (* blocker_ *)
  flight : list call;                  (* requests on their way, to be answered *)
  cursor : option request;             (* cursor_store_ *)
  size : request;                      (* size_store_ *)
  holder : option thread;              (* output_mtx_ held across steps *)
  log : list outcome }.

Definition start : state :=
  {| pcs := fun _ => Idle; flags := fun _ => None; flight := []; cursor := None; size := 0; holder := None; log := [] |}.

Inductive event :=
| ECall (t : thread) (c : call)        (* a thread begins a call with a session of its own choice *)
| ESet (t : thread) (fresh : session)  (* set_value(session, false); [fresh] is the next session if that fails *)
| ESend (t : thread)
| EReply (before : nat)                (* the answer to a request on its way is handled *)
| ECheck (t : thread)                  (* the mutex is taken and the flag looked at *)
| ESleep (t : thread)                  (* the mutex is given up *)
| ESpurious (t : thread).              (* a wake-up for no reason *)

Definition at_thread (f : thread -> pc) (t : thread) (p : pc) : thread -> pc := fun u => if Nat.eqb u t then p else f u.
Definition at_session (f : session -> option bool) (s : session) (b : option bool) : session -> option bool :=
  fun u => if N.eqb u s then b else f u.
Definition wake (p : pc) : pc := match p with Asleep c => Trying c | _ => p end.

(** [set_value] (session_blocker.cpp 25-36): [insert_or_assign] writes the flag also when the session is taken. *)
Definition set_value (f : session -> option bool) (s : session) (v : bool) : bool * (session -> option bool) :=
  (v || match f s with None => true | Some _ => false end, at_session f s (Some v)).

Definition with_pcs (st : state) (p : thread -> pc) : state :=
  {| pcs := p; flags := flags st; flight := flight st; cursor := cursor st; size := size st; holder := holder st; log := log st |}.

(** [execute_plan_finish], [schema_finish] (329-334, 343-350), [size_finish] (336-341), [load_finish] (324-327), with [notify]
    (388-392).  Only the last one does not take [output_mtx_]. *)
Definition reply (st : state) (c : call) (rest : list call) : option state :=
  match ck c, holder st with
  | Load, _ | _, None =>
    Some {| pcs := fun t => wake (pcs st t); flags := snd (set_value (flags st) (cs c) true); flight := rest;
            cursor := match ck c with Cursor => Some (cr c) | _ => cursor st end;
            size := match ck c with Size => cr c | _ => size st end; holder := holder st; log := log st |}
  | _, _ => None
  end.

(** The flag is up: [remove_session], and the answer is taken (365-372, 378-379, 385). *)
Definition finish (st : state) (t : thread) (c : call) : state :=
  {| pcs := at_thread (pcs st) t Idle; flags := at_session (flags st) (cs c) None; flight := flight st;
     cursor := match ck c with Cursor => None | _ => cursor st end; size := size st; holder := None;
     log := match ck c with
            | Cursor => match cursor st with Some r => Answer t Cursor (cr c) r | None => Crash t end
            | Size => Answer t Size (cr c) (size st)
            | Load => Answer t Load (cr c) (cr c)
            end :: log st |}.

Definition step (st : state) (e : event) : option state :=
  match e with
  | ECall t c => match pcs st t with Idle => Some (with_pcs st (at_thread (pcs st) t (Init c))) | _ => None end
  | ESet t fresh =>
    match pcs st t with
    | Init c =>
      let '(done, f) := set_value (flags st) (cs c) false in
      Some {| pcs := at_thread (pcs st) t (if done then Approved c else Init {| cs := fresh; ck := ck c; cr := cr c |});
              flags := f; flight := flight st; cursor := cursor st; size := size st; holder := holder st; log := log st |}
    | _ => None
    end
  | ESend t =>
    match pcs st t with
    | Approved c => Some {| pcs := at_thread (pcs st) t (Trying c); flags := flags st; flight := flight st ++ [c];
                            cursor := cursor st; size := size st; holder := holder st; log := log st |}
    | _ => None
    end
  | EReply before =>
    match nth_error (flight st) before with
    | Some c => reply st c (firstn before (flight st) ++ skipn (before + 1) (flight st))
    | None => None
    end
  | ECheck t =>
    match pcs st t, holder st with
    | Trying c, None =>
      match flags st (cs c) with
      | Some true => Some (finish st t c)
      | Some false => Some {| pcs := at_thread (pcs st) t (Holding c); flags := flags st; flight := flight st;
                              cursor := cursor st; size := size st; holder := Some t; log := log st |}
      | None => Some {| pcs := at_thread (pcs st) t Idle; flags := flags st; flight := flight st; cursor := cursor st;
                        size := size st; holder := None; log := Crash t :: log st |}
      end
    | _, _ => None
    end
  | ESleep t =>
    match pcs st t with
    | Holding c => Some {| pcs := at_thread (pcs st) t (Asleep c); flags := flags st; flight := flight st;
                           cursor := cursor st; size := size st; holder := None; log := log st |}
    | _ => None
    end
  | ESpurious t => match pcs st t with Asleep c => Some (with_pcs st (at_thread (pcs st) t (Trying c))) | _ => None end
  end.

(** [session_id_t()] (components/session/session.cpp 31-37): the counter is raised, then read in a second step; the
    clock shows seconds.  [GAdd t] and [GRead t] are the two steps of thread [t], [GTick] a second going by. *)
Inductive gen_event := GAdd (t : thread) | GRead (t : thread) | GTick.
Record gen_state := { counter : N; clock : N; ids : list (thread * (N * N)) }.
Definition gen_step (g : gen_state) (e : gen_event) : gen_state :=
  match e with
  | GAdd _ => {| counter := (counter g + 1) mod 2 ^ 64; clock := clock g; ids := ids g |}
  | GRead t => {| counter := counter g; clock := clock g; ids := (t, (clock g, counter g)) :: ids g |}
  | GTick => {| counter := counter g; clock := clock g + 1; ids := ids g |}
  end.
