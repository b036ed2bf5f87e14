(** What a condition of an SQL statement means. *)
From Verif Require Import Bytes Outcome ByteOrd.
From Verif Require TapeModel.
From Verif Require Import IndexModel IndexSpec QueryModel QuerySpec SqlModel.
Local Open Scope Z_scope.

(** The six comparison operators and what they stand for. *)
Definition operator_of (o : list byte) : option cmp :=
  if beqb o (str "=") then Some CEq
  else if beqb o (str "==") then Some CEq
  else if beqb o (str "<>") then Some CNe
  else if beqb o (str "!=") then Some CNe
  else if beqb o (str "<") then Some CLt
  else if beqb o (str "<=") then Some CLte
  else if beqb o (str ">") then Some CGt
  else if beqb o (str ">=") then Some CGte
  else None.

(** The spellings of the truth values in a cast to bool. *)
Definition truth_value (s : list byte) : option bool :=
  if beqb s (str "t") || beqb s (str "true") then Some true
  else if beqb s (str "f") || beqb s (str "false") then Some false
  else None.

(** The value of a side of a comparison on a document, if it has one: a field, a literal, a truth value, a sum or
    something of these in parentheses. *)
Fixpoint value_of (n : node) (d : doc) : option dval :=
  match n with
  | Col _ k => field d k
  | Lit (LStr s) => Some (DStr s)
  | Lit (LInt z) => Some (DInt TapeModel.I64 z)
  | Lit LNull => Some DNull
  | Cast (LStr s) t =>
    if beqb t (str "bool") then match truth_value s with Some b => Some (DBool b) | None => None end else None
  | Paren a => value_of a d
  | Op o l r =>
    if beqb o (str "+") then
      match value_of l d, value_of r d with
      | Some (DInt _ x), Some (DInt _ y) => Some (DInt TapeModel.I64 (x + y))
      | _, _ => None
      end
    else None
  | _ => None
  end.

(** A condition is true of a document: a comparison when it stands between the values of its sides, with the left one
    on the left; AND, OR and NOT as usual. *)
Fixpoint holds (n : node) (d : doc) : Prop :=
  match n with
  | Op o l r =>
    exists c x y, operator_of o = Some c /\ value_of l d = Some x /\ value_of r d = Some y /\ stands c x y
  | Conj l r => holds l d /\ holds r d
  | Disj l r => holds l d \/ holds r d
  | Neg r => ~ holds r d
  | Paren a => holds a d
  | _ => False
  end.

(** ** The conditions the code translates *)
Definition column (n : node) : bool := match n with Col _ _ => true | _ => false end.
(** A literal other than NULL, or TRUE or FALSE. *)
Definition constant (n : node) : bool :=
  match n with
  | Lit (LStr _) | Lit (LInt _) => true
  | Cast (LStr s) t => beqb t (str "bool") && (beqb s (str "t") || beqb s (str "f"))
  | _ => false
  end.
Fixpoint negation (n : node) : bool := match n with Neg _ => true | Paren a => negation a | _ => false end.
(** A comparison of a column with a constant or another column, the constant on the right unless the comparison reads
    the same both ways; these connected by AND, OR and NOT, but not NOT NOT. *)
Fixpoint plain (n : node) : bool :=
  match n with
  | Op o l r =>
    match operator_of o with
    | Some c => column l && (column r || constant r)
                || constant l && column r && match c with CEq | CNe => true | _ => false end
    | None => false
    end
  | Conj l r | Disj l r => plain l && plain r
  | Neg r => plain r && negb (negation r)
  | Paren a => plain a
  | _ => false
  end.
(** How many constants a condition has. *)
Fixpoint constants (n : node) : N :=
  match n with
  | Op _ l r => constants l + constants r
  | Conj l r | Disj l r => constants l + constants r
  | Neg r => constants r
  | Paren a => constants a
  | Lit _ | Cast _ _ => 1
  | _ => 0
  end%N.
(** Every comparison of the condition is between values the code can compare on this document (see [comparable]): the
    fields are there, of one kind, and integers are in the range of the type of the field. *)
Fixpoint matched (n : node) (d : doc) : bool :=
  match n with
  | Op _ l r =>
    match value_of l d, value_of r d with
    | Some x, Some y => if column l then comparable x y else comparable y x
    | _, _ => false
    end
  | Conj l r | Disj l r => matched l d && matched r d
  | Neg r => matched r d
  | Paren a => matched a d
  | _ => false
  end.

(** A condition that has, as itself or under AND, OR, NOT and parentheses, one of another kind: IN, IS NULL, LIKE, a
    subquery, ... *)
Fixpoint foreign (n : node) : bool :=
  match n with
  | Conj l r | Disj l r => foreign l || foreign r
  | Neg r | Paren r => foreign r
  | Kind _ _ | Other => true
  | _ => false
  end.
