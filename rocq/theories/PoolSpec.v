(** What a buffer manager is for. *)
From Coq Require Import List ZArith NArith Bool.
From Verif Require Import Bytes Outcome.
From Verif Require Import PoolModel.
Import ListNotations.
Local Open Scope Z_scope.

(** A piece of memory as its user knows it: its size, how often it is pinned, and what was last written. *)
Record piece := { pid : nat; pkind : kind; psize : N; pins : Z; content : option (list byte) }.
Record world := { pieces : list piece; count : nat; reserved : N; limit : N }.
Definition world0 (l : N) : world := {| pieces := []; count := 0; reserved := 0; limit := l |}.

Definition piece_of (w : world) (i : nat) : option piece := List.find (fun b => Nat.eqb (pid b) i) (pieces w).
Definition change (i : nat) (f : piece -> piece) (w : world) : world :=
  {| pieces := map (fun b => if Nat.eqb (pid b) i then f b else b) (pieces w); count := count w; reserved := reserved w;
     limit := limit w |}.
Definition more (b : piece) (z : Z) : piece :=
  {| pid := pid b; pkind := pkind b; psize := psize b; pins := pins b + z; content := content b |}.
Definition with_content (d : list byte) (b : piece) : piece :=
  {| pid := pid b; pkind := pkind b; psize := psize b; pins := pins b; content := Some d |}.
Definition add (w : world) (k : kind) (n : N) (z : Z) (c : option (list byte)) : world :=
  {| pieces := pieces w ++ [{| pid := count w; pkind := k; psize := n; pins := z; content := c |}];
     count := S (count w); reserved := reserved w; limit := limit w |}.

(** Calls a program may make: on pieces it has; written and read when pinned; blocks of a file are not written; what is
    read was written; a piece is released when it is not pinned; what is freed was reserved. *)
Definition legal (w : world) (o : op) : Prop :=
  match o with
  | Small _ | Allocate _ | Block _ | Limit _ | Reserve _ | Used => True
  | Pin i => exists b, piece_of w i = Some b
  | Unpin i _ => exists b, piece_of w i = Some b /\ 0 < pins b
  | Write i _ => exists b, piece_of w i = Some b /\ 0 < pins b /\ pkind b <> File
  | Read i => exists b, piece_of w i = Some b /\ 0 < pins b /\ content b <> None
  | Release i => exists b, piece_of w i = Some b /\ pins b = 0
  | Free n => (n <= reserved w)%N
  end.
(** Memory for a piece: its bytes and a header of eight, in whole sectors of 4096. *)
Definition room (n : N) : N :=
  (let m := n + 8 in if m mod 4096 =? 0 then m else m + (4096 - m mod 4096))%N.
(** The effect of a call that succeeds. *)
Definition after (w : world) (o : op) : world :=
  match o with
  | Small n => add w Tiny n 0 None
  | Allocate n => add w Managed (room n) 1 None
  | Block c => add w File 262144 0 (Some c)
  | Pin i => change i (fun b => more b 1) w
  | Unpin i _ => change i (fun b => more b (-1)) w
  | Write i d => change i (with_content d) w
  | Release i =>
    {| pieces := filter (fun b => negb (Nat.eqb (pid b) i)) (pieces w); count := count w; reserved := reserved w;
       limit := limit w |}
  | Limit l => {| pieces := pieces w; count := count w; reserved := reserved w; limit := l |}
  | Reserve n => {| pieces := pieces w; count := count w; reserved := (reserved w + n)%N; limit := limit w |}
  | Free n => {| pieces := pieces w; count := count w; reserved := (reserved w - n)%N; limit := limit w |}
  | Read _ | Used => w
  end.
Definition after_out (w : world) (o : op) (x : out) : world := match x with OutOfMemory => w | _ => after w o end.

(** Right answers about contents: new pieces are new, what is read is what was written; what needs no memory does not run
    out of it. *)
Definition right_data (w : world) (o : op) (x : out) : Prop :=
  match o with
  | Small _ | Allocate _ => x = Id (count w) \/ x = OutOfMemory
  | Block _ => x = Id (count w)
  | Pin _ | Limit _ | Reserve _ => x = Done \/ x = OutOfMemory
  | Unpin _ _ | Write _ _ | Release _ | Free _ => x = Done
  | Read i => exists b d, piece_of w i = Some b /\ content b = Some d /\ x = Bytes d
  | Used => exists z, x = Memory z
  end.
(** The memory of all pieces, and of those that have to be in memory: pinned ones, and memory that is smaller than a
    block. *)
Definition sum (f : piece -> bool) (w : world) : Z :=
  fold_right (fun b s => if f b then Z.of_N (psize b) + s else s) (Z.of_N (reserved w)) (pieces w).
Definition needed (b : piece) : bool := kind_eqb (pkind b) Tiny || (0 <? pins b).
Definition slack : Z := 32768.
(** Right answers about memory: a request fails only when it and what has to be in memory exceed the limit (less
    [slack]); the memory in use is at least what has to be there, at most that of all pieces, and below the limit (plus
    [slack]). *)
Definition right_memory (w : world) (o : op) (x : out) : Prop :=
  match o with
  | Small n | Reserve n => x = OutOfMemory -> Z.of_N (limit w) < sum needed w + Z.of_N n + slack
  | Allocate n => x = OutOfMemory -> Z.of_N (limit w) < sum needed w + Z.of_N (room n) + slack
  | Pin i => x = OutOfMemory -> exists b, piece_of w i = Some b /\ Z.of_N (limit w) < sum needed w + Z.of_N (psize b) + slack
  | Limit l => x = OutOfMemory -> Z.of_N l < sum needed w + slack
  | Used => exists z, x = Memory z /\ sum needed w <= z <= sum (fun _ => true) w /\ z < Z.of_N (limit w) + slack
  | _ => True
  end.
(** As long as the calls are legal the answers are right. *)
Fixpoint all_right (right : world -> op -> out -> Prop) (w : world) (ops : list op) (outs : list out) : Prop :=
  match ops, outs with
  | [], [] => True
  | o :: r, x :: xs => legal w o -> right w o x /\ all_right right (after_out w o x) r xs
  | _, _ => False
  end.

(** Histories in which everything fits. *)
Fixpoint roomy (w : world) (ops : list op) : Prop :=
  match ops with
  | [] => True
  | o :: r => legal w o /\ sum (fun _ => true) (after w o) + slack <= Z.of_N (limit (after w o)) /\ roomy (after w o) r
  end.

(** Histories of legal calls with their answers, and the world after them. *)
Fixpoint all_legal (w : world) (ops : list op) (outs : list out) : Prop :=
  match ops, outs with
  | o :: r, x :: xs => legal w o /\ all_legal (after_out w o x) r xs
  | _, _ => True
  end.
Fixpoint world_after (w : world) (ops : list op) (outs : list out) : world :=
  match ops, outs with
  | o :: r, x :: xs => world_after (after_out w o x) r xs
  | _, _ => w
  end.
(** Pinning memory again after its last unpin. *)
Definition pins_again (w : world) (o : op) : Prop :=
  exists i b, o = Pin i /\ piece_of w i = Some b /\ pkind b = Managed /\ pins b = 0.
