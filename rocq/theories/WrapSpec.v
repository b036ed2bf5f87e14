(** Every call returns the answer to its own request, and is not left waiting. *)
From Verif Require Import WrapModel.

Fixpoint run (st : state) (es : list event) : option state :=
  match es with [] => Some st | e :: r => match step st e with Some st1 => run st1 r | None => None end end.

Definition own_answer (o : outcome) : Prop := match o with Answer _ _ own got => own = got | Crash _ => False end.

(** The call a thread is in; whether it has registered its session; whether it waits. *)
Definition in_call (p : pc) : option call :=
  match p with Idle => None | Init c | Approved c | Trying c | Holding c | Asleep c => Some c end.
Definition registered (p : pc) : option call :=
  match p with Idle | Init _ => None | Approved c | Trying c | Holding c | Asleep c => Some c end.
Definition waiting (p : pc) : option call :=
  match p with Trying c | Holding c | Asleep c => Some c | _ => None end.

(** An execution in which no answer arrives while another one of its kind has not been fetched, and no session is
    registered a second time between the arrival of its answer and the fetching of it. *)
Definition calm_at (st : state) (e : event) : Prop :=
  match e with
  | EReply i => forall c t d, nth_error (flight st) i = Some c -> waiting (pcs st t) = Some d -> flags st (cs d) = Some true ->
                  ck d = ck c -> ck c = Load
  | ESet t _ => forall c, pcs st t = Init c -> flags st (cs c) <> Some true
  | _ => True
  end.
Fixpoint calm (st : state) (es : list event) : Prop :=
  match es with [] => True | e :: r => calm_at st e /\ match step st e with Some st1 => calm st1 r | None => False end end.

(** One call at a time. *)
Definition one_at_a_time_at (st : state) (e : event) : Prop :=
  match e with ECall _ _ => forall t, pcs st t = Idle | _ => True end.
Fixpoint one_at_a_time (st : state) (es : list event) : Prop :=
  match es with [] => True | e :: r => one_at_a_time_at st e /\ match step st e with Some st1 => one_at_a_time st1 r | None => False end end.

(** A thread makes session ids: both steps of one id come before those of the next. *)
Fixpoint in_turn (es : list gen_event) : bool :=
  match es with
  | [] => true
  | GTick :: r => in_turn r
  | GAdd t :: r =>
    (fix read (r : list gen_event) : bool :=
       match r with GTick :: r' => read r' | GRead u :: r' => Nat.eqb t u && in_turn r' | _ => false end) r
  | GRead _ :: _ => false
  end.
Definition is_call (e : event) : bool := match e with ECall _ _ => true | _ => false end.
Definition is_spurious (e : event) : bool := match e with ESpurious _ => true | _ => false end.
