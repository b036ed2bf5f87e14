(** Calls from several threads (C49) and session ids (C68). *)
From Coq Require Import Arith.
From Verif Require Import WrapModel WrapSpec WrapProofs.

Definition plan (s : session) (r : request) : call := {| cs := s; ck := Cursor; cr := r |}.
Definition load (s : session) (r : request) : call := {| cs := s; ck := Load; cr := r |}.

(** In every execution, by any number of threads: as long as no answer arrives while another one of its kind is still to be
    fetched, and no session is registered again between its answer and the fetching, every call that returned did so with
    the answer to its own request.  Missing: the other executions; see below what happens in them. *)
Theorem C49_own_partial : forall es st, calm start es -> run start es = Some st -> Forall own_answer (log st).
Proof. exact own_answers. Qed.
Print Assumptions C49_own_partial.

(** In particular with one call at a time, whichever threads make them. *)
Theorem C49_one_at_a_time_partial : forall es st, one_at_a_time start es -> run start es = Some st -> Forall own_answer (log st).
Proof. intros es st O. apply own_answers, one_call_calm, O. Qed.
Print Assumptions C49_one_at_a_time_partial.

(** And no call is left waiting once its answer has arrived: in at most two more steps it returns. *)
Theorem C49_returns_partial : forall es st t c, calm start es -> run start es = Some st -> waiting (pcs st t) = Some c ->
  ck c <> Load -> ~ In c (flight st) ->
  exists more st', length more <= 2 /\ run st more = Some st' /\ pcs st' t = Idle /\ In (Answer t (ck c) (cr c) (cr c)) (log st').
Proof. exact returns. Qed.
Print Assumptions C49_returns_partial.

(** Two overlapping calls with the same session, answered in the other order, each fetched before the next arrives. *)
Definition overlapping : list event :=
  [ECall 0 (plan 7 100); ESet 0 8; ECall 1 (plan 7 200); ESet 1 9; ESet 1 9; ESend 0; ECheck 0; ESleep 0; ESend 1;
   EReply 1; ECheck 0; ESleep 0; ECheck 1; EReply 0; ECheck 0].
Example C49_example :
  calm start overlapping /\
  match run start overlapping with Some st => log st = [Answer 0 Cursor 100 100; Answer 1 Cursor 200 200] | None => False end.
Proof.
  split; [|vm_compute; reflexivity]. apply (calmb_sound 2); [reflexivity|]. vm_compute. reflexivity.
Qed.
Definition alternating : list event :=
  [ECall 0 (plan 7 100); ESet 0 8; ESend 0; EReply 0; ECheck 0; ECall 1 (plan 7 200); ESet 1 9; ESend 1; ECheck 1; ESleep 1; EReply 0; ECheck 1].
Example C49_example_one_at_a_time :
  one_at_a_time start alternating /\
  match run start alternating with Some st => log st = [Answer 1 Cursor 200 200; Answer 0 Cursor 100 100] | None => False end.
Proof.
  split; [|vm_compute; reflexivity]. apply (one_at_a_timeb_sound 2); [reflexivity|]. vm_compute. reflexivity.
Qed.

(** Two threads with sessions of their own: the second answer arrives before the first was fetched.  The first thread gets
    the answer of the second, and the second follows a null pointer. *)
Theorem C49_swapped_refuted : exists es, match run start es with
  | Some st => log st = [Crash 1; Answer 0 Cursor 100 200]
  | None => False end.
Proof.
  exists [ECall 0 (plan 1 100); ESet 0 8; ESend 0; ECall 1 (plan 2 200); ESet 1 9; ESend 1; EReply 0; EReply 0; ECheck 0; ECheck 1].
  vm_compute. reflexivity.
Qed.
Print Assumptions C49_swapped_refuted.

(** Two threads with the same session: the second registers it between the arrival of the first answer and the fetching,
    which takes the flag down.  The second call returns; the first one never does, whatever happens without new calls. *)
Definition reached (es : list event) : state := match run start es with Some st => st | None => start end.
Lemma reached_run es : match run start es with Some _ => true | None => false end = true -> run start es = Some (reached es).
Proof. unfold reached. destruct (run start es); [reflexivity|discriminate]. Qed.
Definition same_session : list event :=
  [ECall 0 (plan 1 100); ESet 0 8; ESend 0; EReply 0; ECall 1 (plan 1 200); ESet 1 9; ESet 1 9; ESend 1; EReply 0; ECheck 1].
Definition early_load : list event := [ECall 0 (load 1 100); ESet 0 8; ESend 0; ECheck 0; EReply 0; ESleep 0].
Theorem C49_hang_refuted : exists es st, run start es = Some st /\ log st = [Answer 1 Cursor 200 200] /\ flight st = [] /\
  forall more st', existsb is_call more = false -> run st more = Some st' -> waiting (pcs st' 0) = Some (plan 1 100).
Proof.
  exists same_session, (reached same_session). split; [apply reached_run; vm_compute; reflexivity|]. split; [vm_compute; reflexivity|]. split; [vm_compute; reflexivity|].
  intros more st'. apply stuck_run. split; [vm_compute; reflexivity|]. split; [vm_compute; reflexivity|]. split; [vm_compute; reflexivity|].
  intros [|[|u]] D; [contradiction|vm_compute; reflexivity|vm_compute; reflexivity].
Qed.
Print Assumptions C49_hang_refuted.

(** [load] is told that it is done without the mutex: if this falls between its look at the flag and its going to sleep, it
    sleeps with the flag up, and nothing but a wake-up for no reason or another call can go on. *)
Theorem C49_load_refuted : exists es st, run start es = Some st /\ pcs st 0 = Asleep (load 1 100) /\ flags st 1%N = Some true /\ flight st = [] /\
  forall e, is_call e = false -> is_spurious e = false -> step st e = None.
Proof.
  exists early_load, (reached early_load). split; [apply reached_run; vm_compute; reflexivity|]. split; [vm_compute; reflexivity|]. split; [vm_compute; reflexivity|].
  split; [vm_compute; reflexivity|].
  intros e. apply (sleeping_step _ 0 (load 1 100)). split; [vm_compute; reflexivity|]. split; [vm_compute; reflexivity|].
  intros [|u] D; [contradiction|vm_compute; reflexivity].
Qed.
Print Assumptions C49_load_refuted.

(** * C68 *)

(** Ids made one after another, with any passage of time, are all different (fewer than 2^64 of them). *)
Theorem C68_in_turn_partial : forall es c, in_turn es = true -> (N.of_nat (length es) < 2 ^ 64)%N ->
  NoDup (map snd (ids (fold_left gen_step es {| counter := 0; clock := c; ids := [] |}))).
Proof.
  intros es c T L. apply (ids_turn (length es)); trivial; cbn [counter ids]; try constructor.
  apply N.le_lt_trans with (N.of_nat (length es)); [|exact L]. clear. induction es as [|[]]; cbn [adds length]; lia.
Qed.
Print Assumptions C68_in_turn_partial.

Example C68_example :
  in_turn [GAdd 0; GRead 0; GAdd 1; GTick; GRead 1; GAdd 0; GRead 0] = true /\
  ids (fold_left gen_step [GAdd 0; GRead 0; GAdd 1; GTick; GRead 1; GAdd 0; GRead 0] {| counter := 0; clock := 5; ids := [] |}) =
    [(0, (6%N, 3%N)); (1, (6%N, 2%N)); (0, (5%N, 1%N))].
Proof. split; reflexivity. Qed.

(** Two threads at the same time in the same second: the same id twice. *)
Theorem C68_refuted : forall c, exists es, es = [GAdd 0; GAdd 1; GRead 0; GRead 1] /\
  exists i, ids (fold_left gen_step es {| counter := 0; clock := c; ids := [] |}) = [(1, i); (0, i)].
Proof. intros c. eexists. split; [reflexivity|]. exists (c, 2%N). reflexivity. Qed.
Print Assumptions C68_refuted.
