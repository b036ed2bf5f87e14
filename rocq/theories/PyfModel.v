(** Conditions of the Python interface (find, update, delete): integration/python/sql/convert.cpp 233-346 make an expression of a
    dictionary; components/expressions/compare_expression.cpp 9-11, 144-162; what the expression then selects is
    components/physical_plan/collection/operators/predicates/simple_predicate.cpp 17-57.
    Simplifications: keys are the texts py::str makes of them; tuples are lists; a value is kept in the expression itself (the code keeps
    the number of a parameter: up to 65536 of them); a single comparison of a field is the parameter [test]. *)
From Verif Require Import Bytes Outcome ByteOrd.

Inductive ctype := Invalid | Eq | Ne | Gt | Lt | Gte | Lte | Regex | Any | All | And | Or | Not | All_true | All_false.
Definition same_type (a b : ctype) : bool :=
  match a, b with
  | Invalid, Invalid | Eq, Eq | Ne, Ne | Gt, Gt | Lt, Lt | Gte, Gte | Lte, Lte | Regex, Regex | Any, Any | All, All
  | And, And | Or, Or | Not, Not | All_true, All_true | All_false, All_false => true
  | _, _ => false
  end.
(** components/expressions/forward.hpp 21-38: the names magic_enum knows *)
Definition enumerators : list (list byte * ctype) :=
  [(str "invalid", Invalid); (str "eq", Eq); (str "ne", Ne); (str "gt", Gt); (str "lt", Lt); (str "gte", Gte); (str "lte", Lte);
   (str "regex", Regex); (str "any", Any); (str "all", All); (str "union_and", And); (str "union_or", Or); (str "union_not", Not);
   (str "all_true", All_true); (str "all_false", All_false)].
Fixpoint enum_cast (l : list (list byte * ctype)) (s : list byte) : option ctype :=
  match l with [] => None | (n, t) :: r => if beqb n s then Some t else enum_cast r s end.
(** compare_expression.cpp 149-162: the first character is dropped whatever it is *)
Definition get_compare_type (key : list byte) : ctype :=
  match key with
  | [] => Invalid
  | _ :: r =>
    match enum_cast enumerators r with
    | Some t => t
    | None => if beqb key (str "$and") then And else if beqb key (str "$or") then Or else if beqb key (str "$not") then Not else Invalid
    end
  end.
(** compare_expression.cpp 9-11 *)
Definition is_union (t : ctype) : bool := match t with And | Or | Not => true | _ => false end.

Section Conditions.
Context {V : Type} (test : ctype -> list byte -> V -> bool).
Inductive pc := Val (v : V) | Lst (l : list pc) | Dict (l : list (list byte * pc)).
Inductive expr := Expr (t : ctype) (key : option (list byte)) (v : option V) (children : list expr).

(** convert.cpp 233-237 *)
Definition normalize (e : expr) : expr :=
  match e with Expr t k v cs => Expr (match t, k with Invalid, Some _ => Eq | _, _ => t end) k v cs end.
(** 265-272 *)
Definition real_key (prev word : list byte) : list byte * ctype :=
  match get_compare_type word with
  | Invalid => match get_compare_type prev with Invalid => (prev, Invalid) | t => (word, t) end
  | t => (prev, t)
  end.
(** 277-285: a value; the call for a union is made with the same value, so the calls are counted *)
Fixpoint leaf (calls : nat) (prev word : list byte) (v : V) : res (list expr) :=
  match calls with
  | O => Err Diverge
  | S n =>
    let '(real, t) := real_key prev word in
    do inner <- (if is_union t then leaf n real [] v else Ok []);
    Ok [normalize (Expr t (Some real) (Some v) inner)]
  end.
(** 258-320: what is appended to the children of the parent *)
Fixpoint parse (c : pc) (prev word : list byte) {struct c} : res (list expr) :=
  let '(real, _) := real_key prev word in
  match c with
  | Val v => leaf 3 prev word v
  | Dict l =>
    (fix dict (l : list (list byte * pc)) : res (list expr) :=
       match l with
       | [] => Ok []
       | (k, x) :: r =>
         do inner <- (match real with [] => parse x k [] | _ => parse x real k end);
         do rest <- dict r;
         Ok ((if is_union (get_compare_type k) then [Expr (get_compare_type k) None None inner] else inner) ++ rest)
       end) l
  | Lst l =>
    (fix array (l : list pc) : res (list expr) :=
       match l with [] => Ok [] | x :: r => do es <- parse x real []; do rest <- array r; Ok (es ++ rest) end) l
  end.
(** 322-346 *)
Fixpoint parse_all (l : list (list byte * pc)) : res (list expr) :=
  match l with [] => Ok [] | (k, x) :: r => do es <- parse x k []; do rest <- parse_all r; Ok (es ++ rest) end.
Definition find_condition (l : list (list byte * pc)) : res expr :=
  let t := match l with [(k, _)] => get_compare_type k | _ => And end in
  do cs <- parse_all l;
  match cs with
  | [c] => Ok (normalize c)
  | _ => Ok (Expr (if is_union t then t else And) None None cs)
  end.

(** simple_predicate.cpp 17-41; the first of no conditions is not there *)
Fixpoint check (e : expr) : res bool :=
  match e with
  | Expr t k v cs =>
    match t with
    | And => (fix all (l : list expr) : res bool := match l with [] => Ok true | x :: r => do b <- check x; if b then all r else Ok false end) cs
    | Or => (fix any (l : list expr) : res bool := match l with [] => Ok false | x :: r => do b <- check x; if b then Ok true else any r end) cs
    | Not => match cs with [] => Err UB | x :: _ => do b <- check x; Ok (negb b) end
    | _ => match k, v with Some k, Some v => Ok (test t k v) | _, _ => Err Throw end
    end
  end.
(** find(condition): is a document, known by the comparisons that hold of it, selected? *)
Definition selected (l : list (list byte * pc)) : res bool := do e <- find_condition l; check e.
End Conditions.
Arguments pc : clear implicits.
Arguments expr : clear implicits.
