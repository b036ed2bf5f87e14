(** C90, C91: the buffer manager of tables. *)
From Coq Require Import List ZArith NArith Bool String Lia.
From Verif Require Import Bytes Outcome.
From Verif Require Import PoolModel PoolSpec PoolProofs.
Import ListNotations.
Local Open Scope Z_scope.

(** C90.  What is read from a pinned piece is what was last written to it, or what the file has; new pieces are new; only
    requests for memory run out of it - for every limit and every sequence of legal calls that goes on.
    Missing: memory that is not pinned does not always keep its content (below). *)
Theorem C90_partial : forall l ops outs p,
  run (pool0 l) ops = Ok (outs, p) -> all_right right_data (world0 l) ops outs.
Proof. intros l ops outs p E. exact (proj1 (run_ok ops _ _ outs p (R0 l) E)). Qed.
(** The only legal call without an answer is to pin memory again after its last unpin. *)
Theorem C90_answers_partial : forall l ops outs p o,
  run (pool0 l) ops = Ok (outs, p) -> all_legal (world0 l) ops outs ->
  legal (world_after (world0 l) ops outs) o -> ~ pins_again (world_after (world0 l) ops outs) o ->
  exists x p', step p o = Ok (x, p').
Proof. exact run_total. Qed.
(** When all pieces fit, every call is answered, and none runs out of memory. *)
Theorem C90_fits_partial : forall l ops, roomy (world0 l) ops ->
  exists outs p, run (pool0 l) ops = Ok (outs, p) /\ ~ In OutOfMemory outs /\ all_right right_data (world0 l) ops outs.
Proof.
  intros l ops Rm. destruct (run_fits ops (pool0 l) (world0 l) (R0 l)) as (outs & p & E & N); [intros h [] | exact Rm | ].
  exists outs, p. split; [exact E | split; [exact N | exact (proj1 (run_ok ops _ _ outs p (R0 l) E))]].
Qed.
(** Memory that is written and unpinned is lost when other memory is wanted: to pin it again has no answer. *)
Definition lost_ops : list op :=
  [Allocate 262136; Write 0 (str "kept"); Unpin 0 0; Allocate 262136; Allocate 262136; Allocate 262136; Allocate 262136; Unpin 1 0].
Theorem C90_evicted_refuted : exists l ops outs p o,
  run (pool0 l) ops = Ok (outs, p) /\ all_legal (world0 l) ops outs /\ ~ In OutOfMemory outs /\
  legal (world_after (world0 l) ops outs) o /\ step p o = Err UB.
Proof.
  destruct (run (pool0 1048576) lost_ops) as [(outs & p) | ] eqn:E; [ | vm_compute in E; discriminate].
  exists 1048576%N, lost_ops, outs, p, (Pin 0). split; [exact E | ]. vm_compute in E. injection E as <- <-.
  split; [ | split; [ | split; [ | vm_compute; reflexivity]]].
  - cbn [lost_ops all_legal legal after_out]. repeat split; try exact I.
    + eexists. split; [reflexivity | split; [reflexivity | discriminate]].
    + eexists. split; reflexivity.
    + eexists. split; reflexivity.
  - cbn [In]. intuition discriminate.
  - cbn [legal]. eexists. reflexivity.
Qed.
Print Assumptions C90_partial.
Print Assumptions C90_answers_partial.
Print Assumptions C90_fits_partial.
Print Assumptions C90_evicted_refuted.

(** C91.  Memory is refused only when it and what has to be in memory exceed the limit; the memory in use is that of
    pieces, at least of those that have to be there, and below the limit - up to the 32768 bytes that the cache of a
    thread may have. *)
Theorem C91_partial : forall l ops outs p,
  run (pool0 l) ops = Ok (outs, p) -> all_right right_memory (world0 l) ops outs.
Proof. intros l ops outs p E. exact (proj1 (proj2 (run_ok ops _ _ outs p (R0 l) E))). Qed.
(** Three pieces of 1000 bytes under a limit of 1000 bytes. *)
Theorem C91_limit_refuted : exists l ops outs p z,
  run (pool0 l) ops = Ok (outs, p) /\ all_legal (world0 l) ops outs /\ In (Memory z) outs /\ Z.of_N l < z.
Proof.
  exists 1000%N, [Small 1000; Small 1000; Small 1000; Used], [Id 0; Id 1; Id 2; Memory 3000].
  eexists _, 3000. split; [vm_compute; reflexivity | ]. split; [cbn; tauto | ]. split; [cbn; tauto | reflexivity].
Qed.
(** A request that fits is refused, after memory was given back. *)
Theorem C91_refused_refuted : exists l ops outs p n,
  run (pool0 l) (ops ++ [Small n]) = Ok (outs ++ [OutOfMemory], p) /\ all_legal (world0 l) ops outs /\
  sum (fun _ => true) (world_after (world0 l) ops outs) + Z.of_N n <= Z.of_N l.
Proof.
  exists 60000%N, [Small 20000; Small 20000; Release 0], [Id 0; Id 1; Done]. eexists _, 32768%N.
  split; [vm_compute; reflexivity | ]. split; [ | vm_compute; discriminate].
  cbn [all_legal legal after_out]. repeat split; try exact I. eexists. split; reflexivity.
Qed.
Print Assumptions C91_partial.
Print Assumptions C91_limit_refuted.
Print Assumptions C91_refused_refuted.

(** ** Cases *)
(** A block is evicted for memory and loaded again. *)
Definition case_ops : list op :=
  [Block (str "block"); Pin 0; Read 0; Unpin 0 1; Allocate 262136; Write 1 (str "mine"); Used; Pin 0; Unpin 1 0; Pin 0; Read 0; Used].
Example C90_case : exists p, run (pool0 262144) case_ops =
  Ok ([Id 0; Done; Bytes (str "block"); Done; Id 1; Done; Memory 262144; OutOfMemory; Done; Done; Bytes (str "block"); Memory 262144], p).
Proof. eexists. vm_compute. reflexivity. Qed.
Example C90_case_legal : all_legal (world0 262144) case_ops
  [Id 0; Done; Bytes (str "block"); Done; Id 1; Done; Memory 262144; OutOfMemory; Done; Done; Bytes (str "block"); Memory 262144].
Proof.
  cbn [case_ops all_legal legal after_out]. repeat split; try exact I; eexists; (split; [reflexivity | ]) || reflexivity;
    (split; [reflexivity | discriminate]) || reflexivity.
Qed.
Example C90_fits_case : roomy (world0 1000000) [Allocate 262136; Write 0 (str "kept"); Unpin 0 0; Allocate 262136; Pin 0; Read 0].
Proof.
  cbn [roomy legal]. repeat split; try exact I; try (vm_compute; discriminate);
    eexists; (split; [reflexivity | ]) || reflexivity; (split; [reflexivity | discriminate]) || reflexivity.
Qed.
