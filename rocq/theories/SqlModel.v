(** Conditions of SQL statements: from the tree of the parser to the predicate that is evaluated on documents.
    Modelled from components/sql/transformer/impl/transfrom_common.cpp, components/sql/transformer/utils.hpp and
    components/logical_plan/param_storage.{hpp,cpp}; what the parser builds is read from components/sql/parser/gram.y.
    Not modelled: floating point literals, regular expressions (LIKE), function calls in conditions, casts of anything
    but a literal, operators qualified by a schema.  Asserts are off. *)
From Verif Require Import Bytes Outcome ByteOrd.
From Verif Require TapeModel.
From Verif Require Import IndexModel QueryModel.
Local Open Scope Z_scope.

(** [A_Const]: a literal; the value holds a string, an integer or NULL. *)
Inductive lit := LStr (s : list byte) | LInt (z : Z) | LNull.

(** The nodes of a condition (parsenodes.h). *)
Inductive node :=
| Col (prefix : list (list byte)) (name : list byte) (* ColumnRef: the names of the path, the last one apart *)
| Lit (l : lit)                                      (* A_Const *)
| Cast (l : lit) (type : list byte)                  (* TypeCast of a literal; TRUE and FALSE are 't' and 'f' as bool *)
| Conj (l r : node)                                  (* A_Expr, AEXPR_AND *)
| Disj (l r : node)                                  (* A_Expr, AEXPR_OR *)
| Neg (r : node)                                     (* A_Expr, AEXPR_NOT *)
| Op (o : list byte) (l r : node)                    (* A_Expr, AEXPR_OP *)
| Sign (o : list byte) (r : node)                    (* A_Expr, AEXPR_OP without a left side *)
| Kind (l r : node)                                  (* A_Expr of another kind: IN, IS DISTINCT FROM, ... *)
| Paren (a : node)                                   (* A_Indirection: '(' a_expr ')' (gram.y 14007-14018) *)
| Other.                                             (* another node: IS NULL, CASE, a subquery, ... *)

(** [parameter_node_t] (param_storage.hpp 54-87): the counter of ids, 16 bits wide, and the values. *)
Record pstore := { counter : N; vals : list (N * dval) }.
Definition no_params : pstore := {| counter := 0; vals := [] |}.

(** [add_parameter] (param_storage.hpp 39-41, 73-78, [next_id] param_storage.cpp 28-32): [emplace] keeps the value of
    an id that is there already. *)
Definition add_parameter (v : dval) (st : pstore) : N * pstore :=
  let id := counter st in
  (id, {| counter := ((id + 1) mod 65536)%N; vals := emplace N.eqb id v (vals st) |}).

(** [get_compare_type] (utils.hpp 56-74) without the regular expressions. *)
Definition compare_type (o : list byte) : res cmp :=
  if beqb o (str "==") || beqb o (str "=") then Ok CEq
  else if beqb o (str "!=") || beqb o (str "<>") then Ok CNe
  else if beqb o (str "<") then Ok CLt
  else if beqb o (str "<=") then Ok CLte
  else if beqb o (str ">") then Ok CGt
  else if beqb o (str ">=") then Ok CGte
  else Err Throw.

(** [get_value] (transfrom_common.cpp 8-38).  A cast is read as a boolean whatever its type, and its literal as a
    string: an integer would be taken for an address, NULL for the address 0.  NULL has no case of its own (17-31) and
    falls through to a column.  Every other node is the value NULL (37). *)
Definition node_value (n : node) : res dval :=
  match n with
  | Cast (LStr s) _ => Ok (DBool (beqb s (str "t")))
  | Cast _ _ => Err UB
  | Lit (LStr s) => Ok (DStr s)
  | Lit (LInt z) => Ok (DInt TapeModel.I64 z)
  | Lit LNull => Err UB
  | Col _ name => Ok (DStr name)
  | _ => Ok DNull
  end.

(** The children a union takes over from an operand: those of an operand of its own type, or the operand itself
    (69-79 for AND and OR, 121-127 for NOT). *)
Definition and_part (e : expr) : list expr := match e with And es => es | _ => [e] end.
Definition or_part (e : expr) : list expr := match e with Or es => es | _ => [e] end.
Definition not_part (e : expr) : list expr := match e with Not es => es | _ => [e] end.

(** [transform_a_expr] (40-133) and [transform_a_indirection] (134-144), called with the node as it is in the tree.
    Operands of AND, OR and NOT that are neither an [A_Expr] nor an [A_Indirection] are read as a function call
    (52-53, 64-65, 117-118), which they are not.  A comparison whose left side is not a column takes the right side for
    one, without looking (101); the comparison itself stays as it is (104). *)
Fixpoint transform (n : node) (st : pstore) : res (expr * pstore) :=
  match n with
  | Conj l r =>
    do '(el, s1) <- transform l st;
    do '(er, s2) <- transform r s1;
    Ok (And (and_part el ++ and_part er), s2)
  | Disj l r =>
    do '(el, s1) <- transform l st;
    do '(er, s2) <- transform r s1;
    Ok (Or (or_part el ++ or_part er), s2)
  | Neg r =>
    do '(er, s1) <- transform r st;
    Ok (Not (not_part er), s1)
  | Op o (Col _ k) (Col _ k') => do c <- compare_type o; Ok (Keys c k k', st)
  | Op o (Col _ k) r =>
    do c <- compare_type o;
    do v <- node_value r;
    let (id, s1) := add_parameter v st in Ok (Param c k id, s1)
  | Op o l (Col _ k) =>
    do c <- compare_type o;
    do v <- node_value l;
    let (id, s1) := add_parameter v st in Ok (Param c k id, s1)
  | Op _ _ _ => Err UB
  | Sign _ _ => Err UB
  | Kind _ _ => Err Throw
  | Paren a => match a with Col _ _ | Lit _ | Cast _ _ | Other => Err Throw | _ => transform a st end
  | Col _ _ | Lit _ | Cast _ _ | Other => Err UB
  end.

(** A query with a condition over the documents of a collection: [full_scan] (QueryModel) with the predicate. *)
Definition where_scan (n : node) (limit : Z) (ds : list doc) : res (option (list doc)) :=
  do '(e, st) <- transform n no_params;
  full_scan (fun d => eval e (vals st) d None) limit ds.
