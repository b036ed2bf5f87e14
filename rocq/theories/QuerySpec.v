(** What queries over documents mean. *)
From Verif Require Import Bytes Outcome ByteOrd IndexModel IndexSpec QueryModel.
From Verif Require TapeModel.
From Coq Require Import Sorting.Sorted.
Local Open Scope Z_scope.

(** Values of one kind are ordered; values of different kinds are unrelated. *)
Definition order (a b : dval) : option comparison :=
  match a, b with
  | DInt _ x, DInt _ y => Some (x ?= y)
  | DStr x, DStr y => Some (bcmp x y)
  | DBool x, DBool y => Some (Z.b2z x ?= Z.b2z y)
  | DNull, DNull => Some Eq
  | _, _ => None
  end.

(** A comparison of two values holds when they are related that way. *)
Definition stands (c : cmp) (a b : dval) : Prop :=
  match c with
  | CEq => order a b = Some Eq
  | CNe => order a b <> Some Eq
  | CGt => order a b = Some Gt
  | CGte => order a b = Some Gt \/ order a b = Some Eq
  | CLt => order a b = Some Lt
  | CLte => order a b = Some Lt \/ order a b = Some Eq
  end.

(** The meaning of a predicate on a document and the document it is joined with, if any. *)
Fixpoint sat (e : expr) (ps : list (N * dval)) (l : doc) (r : option doc) : Prop :=
  match e with
  | AllTrue => True
  | AllFalse => False
  | Param c k p => exists x v, field l k = Some x /\ lookup N.eqb p ps = Some v /\ stands c x v
  | Keys c k k' =>
    exists x v, field l k = Some x /\ field (match r with Some r => r | None => l end) k' = Some v /\ stands c x v
  | And es => (fix all es := match es with [] => True | e :: es' => sat e ps l r /\ all es' end) es
  | Or es => (fix any es := match es with [] => False | e :: es' => sat e ps l r \/ any es' end) es
  | Not es => match es with [] => False | e :: _ => ~ sat e ps l r end
  end.

(** Two values the code can compare: one kind, and an integer is in the range of the type of the first. *)
Definition comparable (x v : dval) : bool :=
  match x, v with
  | DInt k z, DInt _ z' => TapeModel.fits k z && TapeModel.fits k z'
  | DStr _, DStr _ | DBool _, DBool _ | DNull, DNull => true
  | _, _ => false
  end.
(** Every comparison in the predicate is between two such values. *)
Fixpoint regular (e : expr) (ps : list (N * dval)) (l : doc) (r : option doc) : bool :=
  match e with
  | AllTrue | AllFalse => true
  | Param c k p =>
    match lookup N.eqb p ps with
    | None => true
    | Some v => match field l k with Some x => comparable x v | None => false end
    end
  | Keys c k k' =>
    match field l k, field (match r with Some r => r | None => l end) k' with
    | Some x, Some v => comparable x v
    | _, _ => false
    end
  | And es | Or es => forallb (fun e => regular e ps l r) es
  | Not es => match es with [] => false | e :: _ => regular e ps l r end
  end.

(** The documents a result holds. *)
Definition answer (o : option (list doc)) : list doc := match o with Some l => l | None => [] end.
Definition ids (ds : list doc) : list N := map did ds.

(** The documents of a collection in the order of their ids, each id once. *)
Definition well_stored (ds : list doc) : Prop := StronglySorted N.lt (ids ds).
