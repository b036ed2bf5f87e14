(** What the execution of a statement is to do: every operator of its plan gives its output once, after its children, and the
    client gets one answer, at the end. *)
From Verif Require Import Bytes Outcome ExecModel.
Require Import Permutation.
Local Open Scope nat_scope.

Fixpoint ids (p : op) : list nat := match p with Nil => [] | Op i _ _ _ l r => i :: ids l ++ ids r end.
Definition root (p : op) : option nat := match p with Nil => None | Op i _ _ _ _ _ => Some i end.
(** One of two in a list is before the other. *)
Definition before (i j : nat) (l : list nat) : Prop := exists a b c, l = a ++ i :: b ++ j :: c.
Fixpoint children_first (p : op) (order : list nat) : Prop :=
  match p with
  | Nil => True
  | Op i _ _ _ l r =>
    (forall j, root l = Some j \/ root r = Some j -> before j i order) /\ children_first l order /\ children_first r order
  end.

(** What happened in a session. *)
Definition seen (w : world) (s : N) : list event := map snd (filter (fun x => (fst x =? s)%N) (log w)).
Definition ran (l : list event) : list nat := flat_map (fun e => match e with Ran i => [i] | _ => [] end) l.
Definition answers (l : list event) : list (option nat) := flat_map (fun e => match e with Answer r => [r] | _ => [] end) l.
Definition writes (l : list event) : nat := length (filter (fun e => match e with Wrote => true | _ => false end) l).
(** The disk owes an answer for it. *)
Definition waiting (w : world) (s : N) : bool := existsb (fun x => (fst x =? s)%N) (pend w).

(** The guard. *)
(** The collection of the operator that asks an index on disk below an operator, on the way along only children. *)
Fixpoint waits (o : op) : option (option N) :=
  match o with Nil => None | Op _ _ a c l r => if a then Some c else match r with Nil => waits l | _ => None end end.
Definition is_nil (o : op) : bool := match o with Nil => true | _ => false end.
(** A statement is suspended in the collection of the asking operator. *)
Definition same_collection (o : op) : bool :=
  match waits o, o with
  | None, _ => true
  | Some (Some c), Op _ _ _ (Some k) _ _ => (c =? k)%N
  | _, _ => false
  end.
(** An operator with a right child has a left one, those that ask have none, collections are not dropped, and each child of
    an operator with two is suspended in its collection. *)
Fixpoint fit (dropped : N -> bool) (o : op) : bool :=
  match o with
  | Nil => true
  | Op _ _ a c l r =>
    negb (is_nil l && negb (is_nil r)) && negb (a && negb (is_nil l)) &&
    match c with Some k => negb (dropped k) | None => true end &&
    (is_nil r || (same_collection l && same_collection r)) && fit dropped l && fit dropped r
  end.
(** Below the root are operators that read. *)
Fixpoint reads (o : op) : bool :=
  match o with
  | Nil => true
  | Op _ t _ _ l r => match t with TRead | TOther => true | _ => false end && reads l && reads r
  end.
Definition changes (p : op) : bool := match p with Op _ (TInsert | TRemove | TUpdate) _ _ _ _ => true | _ => false end.
Definition statement (p : op) : bool :=
  match p with
  | Nil => false
  | Op _ t a c l r =>
    reads l && reads r &&
    match t with
    | TAddIndex | TDropIndex => negb a && is_nil l && is_nil r
    | TInsert | TRemove | TUpdate => match c with Some _ => negb a | None => false end
    | _ => true
    end
  end.
Fixpoint distinct (l : list nat) : bool := match l with [] => true | x :: r => negb (existsb (Nat.eqb x) r) && distinct r end.
Definition good (dropped : N -> bool) (p : op) : bool :=
  statement p && same_collection p && fit dropped p && distinct (ids p).
Definition sessions (l : list input) : list N := flat_map (fun x => match x with Execute s _ => [s] | Deliver _ => [] end) l.
