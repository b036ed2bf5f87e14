(** What conditions, filters and joins over tables mean. *)
From Verif Require Import Bytes Outcome ByteOrd IndexModel QueryModel LValModel TblModel.
From Verif Require TapeModel LValSpec.
From Coq Require Import ZArith.
Local Open Scope nat_scope.

(** ** Tables *)
(** A table: distinct column names, rows with a cell for every column, every value of the type of its column; the types
    are the integers up to 64 bits, booleans and strings. *)
Definition cell_ok (t : lty) (o : option lval) : Prop :=
  match o with
  | None => True
  | Some (VNum s z) => s = t /\ LValSpec.basic t = true /\ LValSpec.fits t z
  | Some (VStr _) => t = TStr
  | Some VNull => False
  end.
Definition table (c : chunk) : Prop :=
  NoDup (map fst (cols c)) /\
  Forall (fun row => Forall2 (fun col o => cell_ok (snd col) o) (cols c) row) (rws c).
(** No cell is NULL. *)
Definition no_nulls (c : chunk) : Prop := Forall (Forall (fun o => o <> None)) (rws c).

(** The cell of a row in the column of a name: [None] without such a column, [Some None] is NULL. *)
Definition cell_of (cs : list (list byte * lty)) (row : list (option lval)) (k : list byte) : option (option lval) :=
  lookup beqb k (combine (map fst cs) row).

(** ** Conditions *)
(** The content of a cell or of a parameter. *)
Inductive datum := Number (z : Z) | Text (s : list byte) | Truth (b : bool).
Definition datum_of (v : lval) : option datum :=
  match v with
  | VNum TBool z => Some (Truth (negb (Z.eqb z 0)))
  | VNum _ z => Some (Number z)
  | VStr s => Some (Text s)
  | VNull => None
  end.
Definition datum_of_param (x : dval) : option datum :=
  match x with DInt _ z => Some (Number z) | DStr s => Some (Text s) | DBool b => Some (Truth b) | _ => None end.

(** The order of two contents of one kind. *)
Definition rel (a b : datum) : option comparison :=
  match a, b with
  | Number x, Number y => Some (Z.compare x y)
  | Text x, Text y => Some (bcmp x y)
  | Truth x, Truth y => Some (Z.compare (Z.b2z x) (Z.b2z y))
  | _, _ => None
  end.
Definition related (o : cmp) (a b : datum) : Prop :=
  match o with
  | CEq => rel a b = Some Eq
  | CNe => rel a b = Some Lt \/ rel a b = Some Gt
  | CGt => rel a b = Some Gt
  | CGte => rel a b = Some Gt \/ rel a b = Some Eq
  | CLt => rel a b = Some Lt
  | CLte => rel a b = Some Lt \/ rel a b = Some Eq
  end.

(** What a row has in a column. *)
Definition content (cs : list (list byte * lty)) (row : list (option lval)) (k : list byte) : option datum :=
  match cell_of cs row k with Some (Some v) => datum_of v | _ => None end.

(** A condition holds of a row of the left table and a row of the right one.  A comparison with NULL does not hold. *)
Fixpoint holds_of (e : expr) (par : N -> option datum) (left right : list byte -> option datum) : Prop :=
  match e with
  | AllTrue => True
  | AllFalse => False
  | Param o k p => exists a b, left k = Some a /\ par p = Some b /\ related o a b
  | Keys o k k' => exists a b, left k = Some a /\ right k' = Some b /\ related o a b
  | And es => (fix all es := match es with [] => True | e :: es' => holds_of e par left right /\ all es' end) es
  | Or es => (fix any es := match es with [] => False | e :: es' => holds_of e par left right \/ any es' end) es
  | Not es => match es with [] => False | e :: _ => ~ holds_of e par left right end
  end.
Definition given (ps : list (N * dval)) (p : N) : option datum :=
  match lookup N.eqb p ps with Some x => datum_of_param x | None => None end.

(** ** When the code evaluates a condition as it should *)
(** Parameters hold numbers of their types. *)
Definition params_ok (ps : list (N * dval)) : Prop := forall p k z, lookup N.eqb p ps = Some (DInt k z) -> TapeModel.fits k z = true.

(** A parameter for a column: one kind, and a number fits the widest integer of the column's signedness. *)
Definition fits_column (v : lval) (x : dval) : bool :=
  match v, x with
  | VNum TBool _, DBool _ => true
  | VNum t _, DInt _ z =>
    match t with
    | TI8 | TI16 | TI32 | TI64 => TapeModel.fits TapeModel.I64 z
    | TU8 | TU16 | TU32 | TU64 => TapeModel.fits TapeModel.U64 z
    | _ => false
    end
  | VStr _, DStr _ => true
  | _, _ => false
  end.
Fixpoint regular1 (e : expr) (ps : list (N * dval)) (cs : list (list byte * lty)) (row : list (option lval)) : bool :=
  match e with
  | AllTrue => false
  | AllFalse => true
  | Param _ k p =>
    match cell_of cs row k, lookup N.eqb p ps with
    | Some (Some v), Some x => fits_column v x
    | _, _ => false
    end
  | Keys _ _ _ => false
  | And es | Or es => forallb (fun e => regular1 e ps cs row) es
  | Not es => match es with [] => false | e :: _ => regular1 e ps cs row end
  end.

(** In a join, the two columns, or the column and the parameter, have exactly the same type. *)
Definition same_type (v w : lval) : bool :=
  match v, w with
  | VNum t _, VNum t' _ => lty_eqb t t' && LValSpec.basic t
  | VStr _, VStr _ => true
  | _, _ => false
  end.
Definition small (x : dval) : bool :=
  match x with DInt k z => negb (N.eqb (TapeModel.code k) (TapeModel.code TapeModel.I128)) | DNull | DNest => false | _ => true end.
Fixpoint regular2 (e : expr) (ps : list (N * dval)) (lcs : list (list byte * lty)) (lrow : list (option lval)) (rcs : list (list byte * lty)) (rrow : list (option lval)) : bool :=
  match e with
  | AllTrue => false
  | AllFalse => true
  | Param _ k p =>
    match cell_of lcs lrow k, lookup N.eqb p ps with
    | Some (Some v), Some x => small x && same_type v (as_logical_value x)
    | _, _ => false
    end
  | Keys _ k k' =>
    match cell_of lcs lrow k, cell_of rcs rrow k' with
    | Some (Some v), Some (Some w) => same_type v w
    | _, _ => false
    end
  | And es | Or es => forallb (fun e => regular2 e ps lcs lrow rcs rrow) es
  | Not es => match es with [] => false | e :: _ => regular2 e ps lcs lrow rcs rrow end
  end.

(** ** Filters and joins *)
(** The first [limit] rows; -1 is no limit. *)
Definition at_most {A} (limit : Z) (rows : list A) : list A :=
  if (limit =? -1)%Z then rows else firstn (Z.to_nat limit) rows.

(** A row of a join made of a row of each table ([None]: the side that has no partner).  On a name both have, the right
    table's value is taken, as it is for documents. *)
Definition made_of (l r : chunk) (a b : option (list (option lval))) (cs : list (list byte * lty)) (row : list (option lval)) : Prop :=
  forall k, cell_of cs row k =
    match (match b with Some b => cell_of (cols r) b k | None => None end),
          (match a with Some a => cell_of (cols l) a k | None => None end) with
    | Some v, _ => Some v
    | None, Some v => Some v
    | None, None => if existsb (fun c => beqb k (fst c)) (cols l ++ cols r) then Some None else None
    end.
(** The rows of a join: pairs that satisfy the condition, and rows without a partner. *)
Notation trow := (list (option lval)) (only parsing).
Definition tpairs (f : trow -> trow -> bool) (l r : list trow) : list (option trow * option trow) :=
  map (fun ab => (Some (fst ab), Some (snd ab))) (filter (fun ab => f (fst ab) (snd ab)) (list_prod l r)).
Definition alone_left (f : trow -> trow -> bool) (l r : list trow) : list (option trow * option trow) :=
  map (fun a => (Some a, None)) (filter (fun a => negb (existsb (f a) r)) l).
Definition alone_right (f : trow -> trow -> bool) (l r : list trow) : list (option trow * option trow) :=
  map (fun b => (None, Some b)) (filter (fun b => negb (existsb (fun a => f a b) l)) r).
Definition relational (t : tjoin) (f : trow -> trow -> bool) (l r : list trow) : list (option trow * option trow) :=
  match t with
  | TInner => tpairs f l r
  | TCross => tpairs (fun _ _ => true) l r
  | TLeft => tpairs f l r ++ alone_left f l r
  | TRight => tpairs f l r ++ alone_right f l r
  | TFull => tpairs f l r ++ alone_left f l r ++ alone_right f l r
  end.

(** Columns of one name have one type. *)
Definition agree (l r : chunk) : Prop :=
  forall k t t', In (k, t) (cols l) -> In (k, t') (cols r) -> t = t'.
