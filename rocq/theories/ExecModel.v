(** The execution of statements: services/collection/executor.cpp 86-258 and 428-462, create_index.cpp 32-99,
    services/memory_storage/memory_storage.cpp 283-324, components/physical_plan/base/operators/operator.cpp 12-76,
    operator_add_index.cpp 19-43, operator_drop_index.cpp 26-50, components/physical_plan/collection/operators/scan/index_scan.cpp 59-93.
    A statement is a plan, a tree of operators; it is cut in parts, which are executed one after the other.  An operator that
    reads an index on disk waits for an answer of the disk, and the statement with it.
    Simplifications: what an operator computes is left out (it is in the models of the operators), only that it ran; the
    hidden children of an aggregation (aggregation.cpp 18-40), which run with it, are part of the operator; parameters and
    cursors are left out, an answer names the operator whose output it carries.  Messages between memory storage and executor
    are handled at once; answers of the disk come in any order, at any time. *)
From Verif Require Import Bytes Outcome.
Local Open Scope nat_scope.

(** operator.hpp [operator_type], as far as the executor tells them apart: 190-218 *)
Inductive optype := TInsert | TRemove | TUpdate | TRead | TOther | TAddIndex | TDropIndex.
(** An operator: its number, type, whether it asks an index on disk, its collection and its children. *)
Inductive op := Nil | Op (i : nat) (t : optype) (asks : bool) (c : option N) (l r : op).
(** [operator_state] *)
Inductive ostate := Created | Running | Waiting | Executed.
Definition upd {A} (f : nat -> A) (i : nat) (x : A) : nat -> A := fun j => if j =? i then x else f j.
Definition updN {A} (f : N -> A) (i : N) (x : A) : N -> A := fun j => if (j =? i)%N then x else f j.

(** What can be seen: an operator gave its output, asked the disk; changes were sent to the disk; the statement was answered
    with the output of an operator or with an error. *)
Inductive event := Ran (i : nat) | Asked (i : nat) | Wrote | Answer (r : option nat).
(** Messages to the disk that are answered: an index is read, is created *)
Inductive request := Find (c : option N) | CreateIx (c : option N).

(** [is_success], operator.cpp 6 *)
Definition done (s : nat -> ostate) (o : op) : bool :=
  match o with Nil => true | Op i _ _ _ _ _ => match s i with Executed => true | _ => false end end.
(** [on_execute], operator.cpp 12-32; index_scan.cpp 59-93 waits in [on_execute_impl] and gives its output in
    [on_resume_impl]; operator_add_index.cpp 38-41 *)
Fixpoint on_execute (s : nat -> ostate) (o : op) : (nat -> ostate) * list event * list request :=
  match o with
  | Nil => (s, [], [])
  | Op i t a c l r =>
    match s i with
    | Created | Running =>
      let '(s1, e1, q1) := on_execute (upd s i Running) l in
      let '(s2, e2, q2) := if done s1 l then on_execute s1 r else (s1, [], []) in
      if done s2 l && done s2 r then
        if a then (upd s2 i Waiting, e1 ++ e2 ++ [Asked i], q1 ++ q2 ++ [Find c])
        else (upd s2 i Executed, e1 ++ e2 ++ [Ran i], q1 ++ q2 ++ match t with TAddIndex => [CreateIx c] | _ => [] end)
      else (s2, e1 ++ e2, q1 ++ q2)
    | Waiting => (upd s i Executed, [Ran i], [])
    | Executed => (s, [], [])
    end
  end.

(** ** Parts of a plan (executor.cpp 133-154) *)
(** 141-147: down the left children to an operator with a right one *)
Fixpoint spine (o : op) : op :=
  match o with Nil => Nil | Op _ _ _ _ l r => match r with Nil => spine l | _ => o end end.
Fixpoint traverse (fuel : nat) (look_up sub_plans : list op) : res (list op) :=
  match look_up with
  | [] => Ok sub_plans
  | o :: rest =>
    match fuel, o with
    | O, _ => Err Diverge
    | _, Nil => Err UB
    | S k, Op _ _ _ _ _ _ =>
      match spine o with
      | Nil => traverse k rest (o :: sub_plans)
      | Op _ _ _ _ l r => traverse k (l :: r :: rest) (o :: sub_plans)
      end
    end
  end.
Fixpoint size (o : op) : nat := match o with Nil => 0 | Op _ _ _ _ l r => S (size l + size r) end.

(** ** The executor *)
(** [plan_t]: the parts that are left, with the states of their operators *)
Record plan := { stack : list op; sts : nat -> ostate }.
(** [clients]: sessions_ of the memory storage; [plans]: plans_ of the executor; [susp]: suspended plans by collection and
    session (session.hpp 46-79); [pend]: requests the disk did not answer yet. *)
Record world := { clients : N -> bool; plans : N -> option plan; susp : N -> N -> option op; pend : list (N * request); log : list (N * event) }.

(** memory_storage.cpp 316-324 *)
Definition answer (w : world) (s : N) (r : option nat) : res world :=
  if clients w s
  then Ok {| clients := updN (clients w) s false; plans := plans w; susp := susp w; pend := pend w; log := log w ++ [(s, Answer r)] |}
  else Err Throw.
(** [execute_plan_finish_], 238-258 *)
Definition finish (w : world) (s : N) (r : option nat) : res world :=
  do w' <- answer w s r;
  Ok {| clients := clients w'; plans := updN (plans w') s None; susp := susp w'; pend := pend w'; log := log w' |}.
Definition note (w : world) (s : N) (es : list event) (qs : list request) : world :=
  {| clients := clients w; plans := plans w; susp := susp w; pend := pend w ++ map (pair s) qs; log := log w ++ map (pair s) es |}.
Definition keep (w : world) (s : N) (p : plan) : world :=
  {| clients := clients w; plans := updN (plans w) s (Some p); susp := susp w; pend := pend w; log := log w |}.
(** session.hpp 48-51: [emplace] *)
Definition suspend (w : world) (c s : N) (o : op) : world :=
  {| clients := clients w; plans := plans w;
     susp := match susp w c s with Some _ => susp w | None => updN (susp w) c (updN (susp w c) s (Some o)) end; pend := pend w; log := log w |}.
Definition unsuspend (w : world) (c s : N) : world :=
  {| clients := clients w; plans := plans w; susp := updN (susp w) c (updN (susp w c) s None); pend := pend w; log := log w |}.

(** [execute_sub_plan_], 164-219, and [execute_sub_plan_finish_], 221-236, for the parts that are left.  After an error the plan
    is looked up again although it was erased (226-228). *)
Fixpoint run_stack (dropped : N -> bool) (w : world) (s : N) (st : nat -> ostate) (stk : list op) : res world :=
  match stk with
  | [] => Err UB
  | Nil :: _ => do _ <- finish w s None; Err Throw
  | (Op i t a c l r) as o :: rest =>
    if match c with Some k => dropped k | None => false end then do _ <- finish w s None; Err Throw else
    let '(st', es, qs) := on_execute st o in
    let w1 := note w s es qs in
    let next w2 := match rest with [] => finish w2 s (Some i) | _ => run_stack dropped w2 s st' rest end in
    match st' i with
    | Executed =>
      match t with
      | TInsert | TRemove | TUpdate => match c with Some _ => next (note w1 s [Wrote] []) | None => Err UB end
      | TAddIndex => Ok (keep w1 s {| stack := stk; sts := st' |})
      | TDropIndex => do w2 <- answer w1 s (Some i); Ok (keep w2 s {| stack := stk; sts := st' |})
      | TRead | TOther => next w1
      end
    | _ => match c with Some k => Ok (suspend (keep w1 s {| stack := stk; sts := st' |}) k s o) | None => Err UB end
    end
  end.

(** A statement arrives: memory_storage.cpp 304-312, executor.cpp 86-162.  [emplace] leaves a plan of the session that is there
    (158-160). *)
Definition execute (dropped : N -> bool) (w : world) (s : N) (p : op) : res world :=
  let w0 := {| clients := updN (clients w) s true; plans := plans w; susp := susp w; pend := pend w; log := log w |} in
  match p with
  | Nil => answer w0 s None
  | _ =>
    do stk <- traverse (S (size p)) [p] [];
    match plans w s with
    | Some old => run_stack dropped w0 s (sts old) (stack old)
    | None => run_stack dropped (keep w0 s {| stack := stk; sts := fun _ => Created |}) s (fun _ => Created) stk
    end
  end.
(** [index_find_finish], create_index.cpp 81-99: nothing is sent to the disk whatever the type of the plan is *)
Definition found (dropped : N -> bool) (w : world) (s : N) (c : option N) : res world :=
  match c with
  | None => Err UB
  | Some k =>
    match susp w k s, plans w s with
    | Some o, Some p =>
      let '(st', es, qs) := on_execute (sts p) o in
      let w1 := unsuspend (note w s es qs) k s in
      match stack p, o with
      | [_], Op i _ _ _ _ _ => finish w1 s (Some i)
      | _ :: rest, _ => run_stack dropped w1 s st' rest
      | _, _ => Err UB
      end
    | None, _ => Err UB
    | _, None => Err Throw
    end
  end.
Fixpoint without {A} (l : list A) (n : nat) : list A :=
  match l, n with [], _ => [] | _ :: r, O => r | x :: r, S k => x :: without r k end.
Inductive input := Execute (s : N) (p : op) | Deliver (n : nat).
Definition step (dropped : N -> bool) (w : world) (x : input) : res world :=
  match x with
  | Execute s p => execute dropped w s p
  | Deliver n =>
    match nth_error (pend w) n with
    | None => Ok w
    | Some (s, q) =>
      let w' := {| clients := clients w; plans := plans w; susp := susp w; pend := without (pend w) n; log := log w |} in
      match q with
      | Find c => found dropped w' s c
      | CreateIx _ => answer w' s (match plans w s with Some p => match stack p with Op i _ _ _ _ _ :: _ => Some i | _ => None end | None => None end)
      end
    end
  end.
Fixpoint steps (dropped : N -> bool) (w : world) (l : list input) : res world :=
  match l with [] => Ok w | x :: r => do w' <- step dropped w x; steps dropped w' r end.
Definition start : world := {| clients := fun _ => false; plans := fun _ => None; susp := fun _ _ => None; pend := []; log := [] |}.
