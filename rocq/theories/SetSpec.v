(** What an UPDATE statement means. *)
From Verif Require Import Bytes Outcome ByteOrd.
From Verif Require TapeModel.
From Verif Require Import IndexModel QueryModel SqlModel.
Local Open Scope Z_scope.

(** The five operations of arithmetic; a quotient is rounded to zero. *)
Definition arithmetic (o : list byte) (x y : Z) : option Z :=
  if beqb o (str "+") then Some (x + y)
  else if beqb o (str "-") then Some (x - y)
  else if beqb o (str "*") then Some (x * y)
  else if beqb o (str "/") then if y =? 0 then None else Some (Z.quot x y)
  else if beqb o (str "%") then if y =? 0 then None else Some (Z.rem x y)
  else None.

(** The value of an expression on a document, if it has one: a field, a literal, TRUE, FALSE, the result of an operation
    on two integers. *)
Fixpoint expression_value (n : node) (d : doc) : option dval :=
  match n with
  | Col _ k => field d k
  | Lit (LStr s) => Some (DStr s)
  | Lit (LInt z) => Some (DInt TapeModel.I64 z)
  | Lit LNull => Some DNull
  | Cast (LStr s) t =>
    if beqb t (str "bool") then
      if beqb s (str "t") then Some (DBool true) else if beqb s (str "f") then Some (DBool false) else None
    else None
  | Paren a => expression_value a d
  | Op o l r =>
    match expression_value l d, expression_value r d with
    | Some (DInt _ x), Some (DInt _ y) =>
      match arithmetic o x y with Some z => Some (DInt TapeModel.I64 z) | None => None end
    | _, _ => None
    end
  | _ => None
  end.

(** Two values are the same: integers of different widths are when the numbers are. *)
Definition same (x y : dval) : Prop :=
  match x, y with DInt _ a, DInt _ b => a = b | _, _ => x = y end.

(** [d'] is [d] after [SET cs]: every column named in [cs] has the value its expression has on [d], all other fields and
    the identity are those of [d]. *)
Definition updated (cs : list (list byte * node)) (d d' : doc) : Prop :=
  did d' = did d /\
  forall k, match lookup beqb k cs with
            | Some n => exists v v', expression_value n d = Some v /\ field d' k = Some v' /\ same v v'
            | None => field d' k = field d k
            end.

(** ** The statements the code gets right *)
(** Columns of the collection [to], integers, strings, TRUE and FALSE, and the five operations. *)
Definition arithmetic_sign (o : list byte) : bool :=
  beqb o (str "+") || beqb o (str "-") || beqb o (str "*") || beqb o (str "/") || beqb o (str "%").
Fixpoint expressible (to : list byte) (n : node) : bool :=
  match n with
  | Col [] _ => true
  | Col [t] _ => beqb t to
  | Lit (LStr _) | Lit (LInt _) => true
  | Cast (LStr s) t => beqb t (str "bool") && (beqb s (str "t") || beqb s (str "f"))
  | Paren a => expressible to a
  | Op o l r => arithmetic_sign o && expressible to l && expressible to r
  | _ => false
  end.
(** The columns an expression reads. *)
Fixpoint mentions (k : list byte) (n : node) : bool :=
  match n with
  | Col _ c => beqb k c
  | Paren a => mentions k a
  | Op _ l r => mentions k l || mentions k r
  | _ => false
  end.
(** No column is set twice, and none is read by an expression after it was set. *)
Fixpoint independent (cs : list (list byte * node)) : bool :=
  match cs with
  | [] => true
  | (k, _) :: r => forallb (fun c => negb (beqb k (fst c)) && negb (mentions k (snd c))) r && independent r
  end.
Fixpoint literals (n : node) : N :=
  match n with
  | Lit _ | Cast _ _ => 1
  | Paren a => literals a
  | Op _ l r => literals l + literals r
  | _ => 0
  end%N.
Definition all_literals (cs : list (list byte * node)) : N := fold_right N.add 0%N (map (fun c => literals (snd c)) cs).

(** Signed integers of at most 64 bits. *)
Definition small (v : dval) : bool :=
  match v with
  | DInt TapeModel.I128 _ => false
  | DInt k z => TapeModel.signed k && TapeModel.fits TapeModel.I64 z
  | _ => false
  end.
(** On this document the expression only reads fields that are there, calculates with small integers only, and every
    result is one. *)
Fixpoint defined (n : node) (d : doc) : bool :=
  match n with
  | Op o l r =>
    defined l d && defined r d &&
    match expression_value l d, expression_value r d, expression_value n d with
    | Some x, Some y, Some z =>
      small x && small y && small z &&
      (* the smallest integer divided by -1 has no remainder in C++ *)
      match x, y with DInt _ a, DInt _ b => negb (beqb o (str "%")) || TapeModel.fits TapeModel.I64 (Z.quot a b) | _, _ => false end
    | _, _, _ => false
    end
  | Paren a => defined a d
  | Col _ k => match field d k with Some (DInt k' z) => small (DInt k' z) | Some (DBool _) | Some (DStr _) => true | _ => false end
  | Lit (LInt z) => TapeModel.fits TapeModel.I64 z
  | _ => true
  end.
(** The new value is not what a field that is not there is taken for (0, false, the empty string), or the field has a
    value of this kind. *)
Definition storable (v : dval) (old : option dval) : bool :=
  match v, old with
  | DInt _ _, Some (DInt _ z) => TapeModel.fits TapeModel.I64 z
  | DInt _ z, _ => negb (z =? 0)
  | DBool _, Some (DBool _) => true
  | DBool b, _ => b
  | DStr _, Some (DStr _) => true
  | DStr s, _ => negb (beqb s [])
  | _, _ => false
  end.
Definition ready (cs : list (list byte * node)) (d : doc) : bool :=
  forallb (fun c => defined (snd c) d &&
    match expression_value (snd c) d with Some v => storable v (field d (fst c)) | None => false end) cs.
