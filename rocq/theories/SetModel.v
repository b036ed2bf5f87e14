(** UPDATE statements over documents: the expressions of SET, their translation and their execution.
    Modelled from components/sql/transformer/impl/transform_update.cpp, components/expressions/update_expression.cpp,
    components/document/value.cpp (184-653), components/document/document.cpp (update, 808-872) and
    components/physical_plan/collection/operators/operator_update.cpp; plans by create_plan_update.cpp.
    Documents are flat (QueryModel).  Operations with floating point results (powers, roots, factorials), absolute values
    and complements are left to a function.  Not modelled: floating point literals, upserts, the indexes (IndexModel).
    Asserts are off. *)
From Verif Require Import Bytes Outcome ByteOrd.
From Verif Require TapeModel.
From Verif Require Import IndexModel QueryModel GroupModel SqlModel.
Local Open Scope Z_scope.

(** [update_expr_t]: the side a field is read from, the operations, the expressions. *)
Inductive side := STo | SFrom | SUndef.
Inductive uop := UAdd | USub | UMul | UDiv | UMod | UShl | UShr | UAnd | UOr | UXor | UElse (o : list byte).
Inductive uexpr := UGet (k : list byte) (s : side) | UConst (p : N) | UCalc (o : uop) (l r : uexpr).

(** The switch over the first character of the operator (transform_update.cpp 62-112); without a case the pointer to the
    expression stays null (113-114). *)
Definition op_of (o : list byte) : option uop :=
  match o with
  | [] => None
  | c :: r =>
    if beqb [c] (str "+") then Some UAdd
    else if beqb [c] (str "-") then Some USub
    else if beqb [c] (str "*") then Some UMul
    else if beqb [c] (str "/") then Some UDiv
    else if beqb [c] (str "%") then Some UMod
    else if beqb [c] (str "<") then Some UShl
    else if beqb [c] (str ">") then Some UShr
    else if beqb [c] (str "&") then Some UAnd
    else if beqb [c] (str "#") then Some UXor
    else if beqb [c] (str "|") then
      match r with
      | c' :: _ => if beqb [c'] (str "/") then Some (UElse (str "|/"))
                   else if beqb [c'] (str "|") then Some (UElse (str "||/")) else Some UOr
      | [] => Some UOr
      end
    else if beqb [c] (str "^") then Some (UElse (str "^"))
    else if beqb [c] (str "!") then Some (UElse (str "!"))
    else if beqb [c] (str "@") then Some (UElse (str "@"))
    else if beqb [c] (str "~") then Some (UElse (str "~"))
    else None
  end.

(** [transform_update_expr] (13-168).  [to] and [from] are the names of the two collections (paths with a database,
    148-162, are not modelled, they throw here).  A cast is a truth value whatever its type is (18-24).  A NULL literal
    has no case (44-45): the id of the parameter is read without a value.
    The kinds of [A_Expr] other than operators fall through to another type of node (118-124); a missing side of a unary
    operator is read through a null pointer (17, 114-115).  Other nodes run off the end of the function. *)
Fixpoint transform_set (to from : list byte) (n : node) (st : pstore) : res (uexpr * pstore) :=
  match n with
  | Cast (LStr s) _ => let (id, s1) := add_parameter (DBool (beqb s (str "t"))) st in Ok (UConst id, s1)
  | Cast _ _ => Err UB
  | Lit (LStr s) => let (id, s1) := add_parameter (DStr s) st in Ok (UConst id, s1)
  | Lit (LInt z) => let (id, s1) := add_parameter (DInt TapeModel.I64 z) st in Ok (UConst id, s1)
  | Lit LNull => Err UB
  | Op o l r =>
    match op_of o with
    | None => Err UB
    | Some u =>
      do '(el, s1) <- transform_set to from l st;
      do '(er, s2) <- transform_set to from r s1;
      Ok (UCalc u el er, s2)
    end
  | Sign _ _ | Conj _ _ | Disj _ _ | Neg _ | Kind _ _ => Err UB
  | Paren a => transform_set to from a st
  | Col prefix k =>
    match prefix with
    | [] => Ok (UGet k SUndef, st)
    | [t] => if beqb t to then Ok (UGet k STo, st) else if beqb t from then Ok (UGet k SFrom, st) else Err Throw
    | _ => Err Throw
    end
  | Other => Err UB
  end.

(** The list of SET (186-193): a name and an expression each. *)
Fixpoint transform_sets (to from : list byte) (cs : list (list byte * node)) (st : pstore) :
  res (list (list byte * uexpr) * pstore) :=
  match cs with
  | [] => Ok ([], st)
  | (c, n) :: r =>
    do '(e, s1) <- transform_set to from n st;
    do '(es, s2) <- transform_sets to from r s1;
    Ok ((c, e) :: es, s2)
  end.

(** ** Values *)
(** The type a calculation is done in: that of the first value that is there (value.cpp 202-227 and alike). *)
Definition calc_type (k : ik) : ik :=
  match k with TapeModel.I128 => TapeModel.I128 | _ => if TapeModel.signed k then TapeModel.I64 else TapeModel.U64 end.
(** Signed results that do not fit are undefined, unsigned ones wrap around. *)
Definition in_type (t : ik) (z : Z) : res Z :=
  if TapeModel.signed t then if TapeModel.fits t z then Ok z else Err UB else Ok (TapeModel.cast t z).
Definition bits (t : ik) : Z := match t with TapeModel.I128 => 128 | TapeModel.I32 => 32 | _ => 64 end.
(** The operations of <functional> on two integers: division by zero is undefined; shifts by less than 0 or by the width
    too, and in C++17 a shift of a negative value to the left, or one out of the unsigned type. *)
Definition calc (o : uop) (t : ik) (a b : Z) : res Z :=
  match o with
  | UAdd => in_type t (a + b)
  | USub => in_type t (a - b)
  | UMul => in_type t (a * b)
  | UDiv => if b =? 0 then Err UB else in_type t (Z.quot a b)
  | UMod => if b =? 0 then Err UB else if TapeModel.fits t (Z.quot a b) then in_type t (Z.rem a b) else Err UB
  | UShl =>
    if (0 <=? b) && (b <? bits t) then
      if TapeModel.signed t && ((a <? 0) || (2 ^ bits t <=? a * 2 ^ b)) then Err UB else Ok (TapeModel.cast t (a * 2 ^ b))
    else Err UB
  | UShr => if (0 <=? b) && (b <? bits t) then Ok (a / 2 ^ b) else Err UB
  | UAnd => Ok (Z.land a b)
  | UOr => Ok (Z.lor a b)
  | UXor => Ok (Z.lxor a b)
  | UElse _ => Err UB
  end.

Section External.
  (** The operations that are not modelled. *)
  Variable other : list byte -> option dval -> option dval -> res (option dval).

  (** [sum], [subtract], [mult], [divide], [modulus], [bit_and], ... (197-349, 494-653): nothing when both are missing, a
      missing one is zero.  Booleans are calculated as [int]s.  Strings are added end to end (GroupModel.sum) and
      otherwise left as they are, like NULL and nested values. *)
  Definition combine_values (o : uop) (v1 v2 : option dval) : res (option dval) :=
    match o with
    | UElse s => other s v1 v2
    | _ =>
      match (match v1 with Some v => Some v | None => v2 end) with
      | None => Ok v1
      | Some (DInt k _) =>
        let t := calc_type k in
        do a <- operand 0 (as_int_of t) v1; do b <- operand 0 (as_int_of t) v2;
        do z <- calc o t a b; Ok (Some (DInt t z))
      | Some (DBool _) =>
        do a <- operand false as_bool_of v1; do b <- operand false as_bool_of v2;
        do z <- calc o TapeModel.I32 (Z.b2z a) (Z.b2z b); Ok (Some (DInt TapeModel.I32 z))
      | Some (DStr _) => match o with UAdd => sum v1 v2 | _ => Ok v1 end
      | Some _ => Ok v1
      end
    end.

  (** [update_expr_t::execute] of everything but a SET (update_expression.cpp 32-43, 243-262, 330-336, 374-431): the
      expression as it is afterwards - the side of a field is decided once and kept (247-255) - and its output.  [from]
      is null in an update without a second collection. *)
  Fixpoint evaluate (e : uexpr) (to : doc) (from : option doc) (ps : list (N * dval)) : res (uexpr * option dval) :=
    match e with
    | UConst p => match lookup N.eqb p ps with Some v => Ok (e, Some v) | None => Err Throw end
    | UCalc o l r =>
      do '(l', v1) <- evaluate l to from ps;
      do '(r', v2) <- evaluate r to from ps;
      do v <- combine_values o v1 v2;
      Ok (UCalc o l' r', v)
    | UGet k s =>
      match s with
      | STo => Ok (e, QueryModel.get_value to k)
      | SFrom => match from with None => Err UB | Some f => Ok (e, QueryModel.get_value f k) end
      | SUndef =>
        match field to k with
        | Some _ => Ok (UGet k STo, QueryModel.get_value to k)
        | None =>
          match from with
          | None => Err UB
          | Some f => match field f k with Some _ => Ok (UGet k SFrom, QueryModel.get_value f k) | None => Ok (e, Some DNull) end
          end
        end
      end
    end.

  (** [get_as<T>] (document.hpp 154-165), the default without a value that can be read, and [document_t::update]
      (document.cpp 808-872): the type of a value that is missing is read through a null pointer; NULL and nested values
      change nothing. *)
  Fixpoint put_field (k : list byte) (v : dval) (fs : list (list byte * dval)) : list (list byte * dval) :=
    match fs with
    | [] => [(k, v)]
    | (k', v') :: r => if beqb k k' then (k', v) :: r else (k', v') :: put_field k v r
    end.
  Definition with_field (d : doc) (k : list byte) (v : dval) : doc := {| did := did d; fields := put_field k v (fields d) |}.
  Definition old_int (t : ik) (d : doc) (k : list byte) : Z :=
    match field d k with Some (DInt k' z) => match read_as t k' z with Ok z' => z' | Err _ => 0 end | _ => 0 end.
  Definition old_bool (d : doc) (k : list byte) : bool := match field d k with Some (DBool b) => b | _ => false end.
  Definition old_str (d : doc) (k : list byte) : list byte := match field d k with Some (DStr s) => s | _ => [] end.
  Definition update (d : doc) (k : list byte) (v : option dval) : res (doc * bool) :=
    match v with
    | None => Err UB
    | Some (DBool b) => if Bool.eqb (old_bool d k) b then Ok (d, false) else Ok (with_field d k (DBool b), true)
    | Some (DInt k0 z) =>
      let t := calc_type k0 in
      do z' <- read_as t k0 z;
      if old_int t d k =? z' then Ok (d, false) else Ok (with_field d k (DInt t z'), true)
    | Some (DStr s) => if beqb (old_str d k) s then Ok (d, false) else Ok (with_field d k (DStr s), true)
    | Some _ => Ok (d, false)
    end.

  (** The loop over the SETs for one document (operator_update.cpp 44-47, 77-79; update_expression.cpp 178-186): each is executed on the document as the
      ones before have left it. *)
  Fixpoint run_sets (es : list (list byte * uexpr)) (to : doc) (from : option doc) (ps : list (N * dval)) :
    res (list (list byte * uexpr) * doc * bool) :=
    match es with
    | [] => Ok ([], to, false)
    | (c, e) :: r =>
      do '(e', v) <- evaluate e to from ps;
      do '(to', m) <- update to c v;
      do '(r', to'', m') <- run_sets r to' from ps;
      Ok ((c, e') :: r', to'', m || m')
    end.

  (** The loop over the documents found (74-86): the documents, the ids of those that were modified and of the others. *)
  Fixpoint run_documents (es : list (list byte * uexpr)) (ds : list doc) (ps : list (N * dval)) :
    res (list doc * list N * list N) :=
    match ds with
    | [] => Ok ([], [], [])
    | d :: r =>
      do '(es', d', m) <- run_sets es d None ps;
      do '(r', ms, ns) <- run_documents es' r ps;
      Ok (d' :: r', if m then did d :: ms else ms, if m then ns else did d :: ns)
    end.

  (** The documents are those of the collection: what the update does to them is seen there. *)
  Definition store (ds changed : list doc) : list doc :=
    map (fun d => match find (fun c => N.eqb (did c) (did d)) changed with Some c => c | None => d end) ds.

  (** [UPDATE to SET cs WHERE w] on the documents of the collection (transform_update.cpp 170-211, create_plan_update.cpp
      30-38): the constants of SET come before those of WHERE. *)
  Definition update_statement (to : list byte) (cs : list (list byte * node)) (w : option node) (ds : list doc) :
    res (list doc * list N * list N) :=
    do '(es, s1) <- transform_sets to [] cs no_params;
    do '(e, s2) <- match w with None => Ok (AllTrue, s1) | Some n => transform n s1 end;
    do found <- full_scan (fun d => eval e (vals s2) d None) (-1) ds;
    do '(out, ms, ns) <- run_documents es (match found with Some l => l | None => [] end) (vals s2);
    Ok (store ds out, ms, ns).

  (** [UPDATE to SET cs FROM from WHERE w] (operator_update.cpp 39-56, create_plan_update.cpp 39-67): every pair of
      documents that satisfies the condition, which is tested on the document as the pairs before have left it. *)
  Fixpoint run_pairs (p : doc -> doc -> res bool) (es : list (list byte * uexpr)) (l : doc) (rs : list doc) (ps : list (N * dval)) :
    res (list (list byte * uexpr) * doc) :=
    match rs with
    | [] => Ok (es, l)
    | r :: rest =>
      do b <- p l r;
      if b then do '(es', l', _) <- run_sets es l (Some r) ps; run_pairs p es' l' rest ps
      else run_pairs p es l rest ps
    end.
  Fixpoint run_product (p : doc -> doc -> res bool) (es : list (list byte * uexpr)) (ls rs : list doc) (ps : list (N * dval)) :
    res (list doc) :=
    match ls with
    | [] => Ok []
    | l :: rest => do '(es', l') <- run_pairs p es l rs ps; do out <- run_product p es' rest rs ps; Ok (l' :: out)
    end.
  Definition update_from (to from : list byte) (cs : list (list byte * node)) (w : option node) (ds fs : list doc) :
    res (list doc) :=
    do '(es, s1) <- transform_sets to from cs no_params;
    do '(e, s2) <- match w with None => Ok (AllTrue, s1) | Some n => transform n s1 end;
    run_product (fun l r => eval e (vals s2) l (Some r)) es ds fs (vals s2).
End External.
