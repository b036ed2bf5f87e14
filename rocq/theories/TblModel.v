(** Operators over tables: conditions, filtering and joins.  Modelled from
    components/physical_plan/table/operators/check_expr.cpp, operator_match.cpp, operator_join.cpp,
    components/vector/vector.cpp and components/vector/data_chunk.cpp.  Columns of FLOAT, DOUBLE and the nested types are
    not modelled. *)
From Verif Require Import Bytes Outcome ByteOrd IndexModel QueryModel LValModel GroupModel.
From Verif Require TapeModel.
From Coq Require Import ZArith.
Local Open Scope nat_scope.

(** [data_chunk_t]: the names (aliases) and types of the columns, and the rows; [None] is a cell whose validity bit is
    off. *)
Record chunk := { cols : list (list byte * lty); rws : list (list (option lval)) }.

(** [DEFAULT_VECTOR_CAPACITY] (vector_buffer.hpp). *)
Definition CAP : nat := N.to_nat 1024.

(** The maps from names to positions, filled with [emplace]: of two columns of one name the first is found
    (operator_join.cpp 58-69, operator_match.cpp 26-29). *)
Fixpoint index_of (k : list byte) (cs : list (list byte * lty)) : option nat :=
  match cs with
  | [] => None
  | (k', _) :: r => if beqb k k' then Some 0 else option_map S (index_of k r)
  end.

(** The types with a case in [vector_t::value_internal] (vector.cpp 584-667) and [set_value] (435-545), of those modelled:
    the others, timestamps and 128 bit integers, throw. *)
Definition storable (t : lty) : bool :=
  match t with TBool | TI8 | TI16 | TI32 | TI64 | TU8 | TU16 | TU32 | TU64 | TStr => true | _ => false end.
(** [chunk.data\[j\].value(i)] (vector.cpp 550-582, 772-781): a NULL cell reads as the zero of the column's type.  A row
    that was never filled has no determinate value. *)
Definition read (c : chunk) (j i : nat) : res lval :=
  match nth_error (rws c) i, nth_error (cols c) j with
  | Some row, Some (_, t) =>
    match nth_error row j with
    | Some (Some v) => if storable t then Ok v else Err Throw
    | Some None => Ok (vzero t)
    | None => Err UB
    end
  | _, _ => Err UB
  end.

(** [vector_t::set_value] (419-547): what a cell of a column of type [t] holds after a value is stored.  A value of
    another type is cast; a cast that does not exist gives NULL (with assertions it stops).  *)
Definition put (t : lty) (v : lval) : res (option lval) :=
  match (match v with VNull => Some VNull | _ => cast_as v t end) with
  | Some VNull | None => Ok None
  | Some w => if storable t then Ok (Some w) else Err Throw
  end.

(** ** Conditions *)
(** The C++ type a value of a logical type is kept as: [to_physical_type] (types.cpp 217-266) and the alternatives of
    the variant. *)
Definition kept_as (t : lty) : lty := match t with TSec | TMs | TUs | TNs => TI64 | _ => t end.
Definition get_as (t : lty) (v : lval) : res Z :=
  match v with VNum s z => if lty_eqb (kept_as s) t then Ok z else Err Throw | _ => Err Throw end.

(** [as_logical_value] (value.cpp 95-129) of a parameter. *)
Definition lty_of (k : ik) : lty :=
  match k with
  | TapeModel.I8 => TI8 | TapeModel.I16 => TI16 | TapeModel.I32 => TI32 | TapeModel.I64 => TI64
  | TapeModel.U8 => TU8 | TapeModel.U16 => TU16 | TapeModel.U32 => TU32 | TapeModel.U64 => TU64
  | TapeModel.I128 => TNA
  end.
Definition as_logical_value (v : dval) : lval :=
  match v with
  | DBool b => VNum TBool (Z.b2z b)
  | DInt TapeModel.I128 _ => VNull
  | DInt k z => VNum (lty_of k) z
  | DStr s => VStr s
  | DNull | DNest => VNull
  end.

Section Conditions.
  (** The parameter id of a comparison of two columns, which is never set (compare_expression.cpp 23-31). *)
  Variable unset : N.
  (** [get_string_bytes] (value.cpp): the bytes of a value that is not a string. *)
  Variable string_bytes : dval -> list byte.

  (** [std::map::at] and [std::unordered_map::at] throw. *)
  Definition column_of (k : list byte) (c : chunk) : res nat :=
    match index_of k (cols c) with Some j => Ok j | None => Err Throw end.
  Definition parameter (p : N) (ps : params) : res dval :=
    match lookup N.eqb p ps with Some v => Ok v | None => Err Throw end.

  (** [check_expr] on two chunks (check_expr.cpp 5-52): the second value is read as the type of the first. *)
  Definition compare_cells (o : cmp) (v w : lval) : res bool :=
    match v with
    | VNum t a =>
      match kept_as t with
      | TI128 | TU128 | TNA | TOther | TStr | TSec | TMs | TUs | TNs => Err Throw
      | t' => do b <- get_as t' w; Ok (test o (three_way a b))
      end
    | VStr a => match w with VStr b => Ok (test o (bcmp a b)) | _ => Err Throw end
    | VNull => Err Throw
    end.
  Definition check2 (o : cmp) (k : list byte) (right : N + list byte) (ps : params) (l r : chunk) (i j : nat) : res bool :=
    do jl <- column_of k l;
    do v <- read l jl i;
    do w <- match right with
            | inl p => do x <- parameter p ps; Ok (as_logical_value x)
            | inr k' => do jr <- column_of k' r; read r jr j
            end;
    compare_cells o v w.

  (** [check_expr] on one chunk (54-94): the parameter is read as the kind of the column.  The getters of the parameter
      are [noexcept]: a parameter that cannot be read ends the process, here [Err Throw].  The column on the right of a
      comparison of two columns is ignored. *)
  Definition compare_parameter (o : cmp) (v : lval) (x : dval) : res bool :=
    match v with
    | VNum t a =>
      match kept_as t with
      | TBool => do b <- as_bool_of (Some x); Ok (test o (three_way a (Z.b2z b)))
      | TU8 | TU16 | TU32 | TU64 => do b <- as_int_of TapeModel.U64 (Some x); Ok (test o (three_way a b))
      | TI8 | TI16 | TI32 | TI64 => do b <- as_int_of TapeModel.I64 (Some x); Ok (test o (three_way a b))
      | _ => Err Throw
      end
    | VStr a => Ok (test o (bcmp a (match x with DStr b => b | _ => string_bytes x end)))
    | VNull => Err Throw
    end.
  Definition check1 (o : cmp) (k : list byte) (p : N) (ps : params) (c : chunk) (i : nat) : res bool :=
    do j <- column_of k c;
    do v <- read c j i;
    do x <- parameter p ps;
    compare_parameter o v x.

  (** [check_expr_general] (96-214 on two chunks, 216-279 on one): [all_true] is false.  Not modelled: a missing
      expression, which is true, and the comparisons [any], [all] (false) and [regex], [invalid] (throw). *)
  Fixpoint cond2 (e : expr) (ps : params) (l r : chunk) (i j : nat) : res bool :=
    match e with
    | AllTrue => Ok false
    | AllFalse => Ok false
    | Param o k p => check2 o k (inl p) ps l r i j
    | Keys o k k' => check2 o k (inr k') ps l r i j
    | And es => (fix all es := match es with
                               | [] => Ok true
                               | e :: es' => do b <- cond2 e ps l r i j; if b then all es' else Ok false
                               end) es
    | Or es => (fix any es := match es with
                              | [] => Ok false
                              | e :: es' => do b <- cond2 e ps l r i j; if b then Ok true else any es'
                              end) es
    | Not es => match es with [] => Err UB | e :: _ => do b <- cond2 e ps l r i j; Ok (negb b) end
    end.
  Fixpoint cond1 (e : expr) (ps : params) (c : chunk) (i : nat) : res bool :=
    match e with
    | AllTrue => Ok false
    | AllFalse => Ok false
    | Param o k p => check1 o k p ps c i
    | Keys o k k' => check1 o k unset ps c i
    | And es => (fix all es := match es with
                               | [] => Ok true
                               | e :: es' => do b <- cond1 e ps c i; if b then all es' else Ok false
                               end) es
    | Or es => (fix any es := match es with
                              | [] => Ok false
                              | e :: es' => do b <- cond1 e ps c i; if b then Ok true else any es'
                              end) es
    | Not es => match es with [] => Err UB | e :: _ => do b <- cond1 e ps c i; Ok (negb b) end
    end.
End Conditions.

(** ** Rows of a result *)
(** [set_value(j, count, value)] for the column at [j] of a row. *)
Fixpoint set_cell (cs : list (list byte * lty)) (j : nat) (v : lval) (row : list (option lval)) : res (list (option lval)) :=
  match cs, row, j with
  | (_, t) :: _, _ :: row', O => do x <- put t v; Ok (x :: row')
  | _ :: cs', x :: row', S j' => do r <- set_cell cs' j' v row'; Ok (x :: r)
  | _, _, _ => Err UB
  end.

(** A row added to a result that has the capacity of a vector; one more row is written outside of it.  Every column of
    the row is set, so what it holds before does not matter. *)
Definition blank (cs : list (list byte * lty)) : list (option lval) := map (fun _ => None) cs.
Definition emit (out : list (list (option lval))) (row : list (option lval)) : res (list (list (option lval))) :=
  if length out <? CAP then Ok (out ++ [row]) else Err UB.

(** ** Filtering *)
(** The copy of a row (operator_match.cpp 35-37). *)
Fixpoint copy_row (c : chunk) (i : nat) (n j : nat) (row : list (option lval)) : res (list (option lval)) :=
  match n with
  | O => Ok row
  | S n' => do v <- read c j i; do row' <- set_cell (cols c) j v row; copy_row c i n' (S j) row'
  end.
(** The loop (32-46) from row [i]; the limit is checked after each row that is copied. *)
Fixpoint match_loop (p : nat -> res bool) (limit : Z) (c : chunk) (n i : nat) (out : list (list (option lval))) : res (list (list (option lval))) :=
  match n with
  | O => Ok out
  | S n' =>
    do b <- p i;
    if b then
      do row <- copy_row c i (length (cols c)) 0 (blank (cols c));
      do out' <- emit out row;
      if limit_check limit (length out') then match_loop p limit c n' (S i) out' else Ok out'
    else match_loop p limit c n' (S i) out
  end.
(** [operator_match_t::on_execute_impl] (14-49); [None]: no output. *)
Definition table_match (p : chunk -> nat -> res bool) (limit : Z) (c : chunk) : res (option chunk) :=
  if limit_check limit 0 then
    do out <- match_loop (p c) limit c (length (rws c)) 0 [];
    Ok (Some {| cols := cols c; rws := out |})
  else Ok None.

(** ** Joins *)
(** The columns of the result (operator_join.cpp 39-46). *)
Definition res_cols (l r : chunk) : list (list byte * lty) :=
  fold_left (fun cs col => match index_of (fst col) cs with None => cs ++ [col] | Some _ => cs end) (cols r) (cols l).

(** The values of one side stored by name: [None] for a side that has no row here, which stores NULL. *)
Fixpoint put_side (rc : list (list byte * lty)) (c : chunk) (i : option nat) (cs : list (list byte * lty)) (j : nat) (row : list (option lval)) : res (list (option lval)) :=
  match cs with
  | [] => Ok row
  | (k, _) :: cs' =>
    do v <- match i with Some i => read c j i | None => Ok VNull end;
    match index_of k rc with
    | None => Err Throw
    | Some q => do row' <- set_cell rc q v row; put_side rc c i cs' (S j) row'
    end
  end.
(** The left side and then the right side (102-107 and the like). *)
Definition join_row (l r : chunk) (i j : option nat) : res (list (option lval)) :=
  do row <- put_side (res_cols l r) l i (cols l) 0 (blank (res_cols l r));
  put_side (res_cols l r) r j (cols r) 0 row.
Definition add_pair (l r : chunk) (i j : option nat) (out : list (list (option lval))) : res (list (list (option lval))) :=
  do row <- join_row l r i j; emit out row.

Section Join.
  Variable p : nat -> nat -> res bool.
  Variables l r : chunk.

  (** [inner_join_] (96-116): the rows [j], ... of the right side for the row [i] of the left one. *)
  Fixpoint inner_right (i n j : nat) (out : list (list (option lval))) : res (list (list (option lval))) :=
    match n with
    | O => Ok out
    | S n' =>
      do b <- p i j;
      do out' <- (if b then add_pair l r (Some i) (Some j) out else Ok out);
      inner_right i n' (S j) out'
    end.
  Fixpoint inner_left (n i : nat) (out : list (list (option lval))) : res (list (list (option lval))) :=
    match n with
    | O => Ok out
    | S n' => do out' <- inner_right i (length (rws r)) 0 out; inner_left n' (S i) out'
    end.

  (** The loops of the outer joins (126-150, 177-201): the row without a partner is added after each right row until
      one matches.  [seen] are the right rows that matched. *)
  Fixpoint outer_inner (i n j : nat) (visited : bool) (out : list (list (option lval))) (seen : list nat) : res (list (list (option lval)) * list nat) :=
    match n with
    | O => Ok (out, seen)
    | S n' =>
      do b <- p i j;
      do out1 <- (if b then add_pair l r (Some i) (Some j) out else Ok out);
      let visited' := visited || b in
      do out2 <- (if visited' then Ok out1 else add_pair l r (Some i) None out1);
      outer_inner i n' (S j) visited' out2 (if b then j :: seen else seen)
    end.
  Fixpoint outer_left (n i : nat) (out : list (list (option lval))) (seen : list nat) : res (list (list (option lval)) * list nat) :=
    match n with
    | O => Ok (out, seen)
    | S n' => do '(out', seen') <- outer_inner i (length (rws r)) 0 false out seen; outer_left n' (S i) out' seen'
    end.
  (** The right rows that never matched (152-167). *)
  Fixpoint full_rest (n i : nat) (seen : list nat) (out : list (list (option lval))) : res (list (list (option lval))) :=
    match n with
    | O => Ok out
    | S n' =>
      do out' <- (if existsb (Nat.eqb i) seen then Ok out else add_pair l r None (Some i) out);
      full_rest n' (S i) seen out'
    end.

  (** [outer_right_join_] (204-237): [i] counts the right rows and [j] the left ones, but [i] is used for the left side
      and [j] for the right one. *)
  Fixpoint right_inner (i n j : nat) (visited : bool) (out : list (list (option lval))) : res (list (list (option lval))) :=
    match n with
    | O => Ok out
    | S n' =>
      do b <- p i j;
      do out1 <- (if b then add_pair l r (Some i) (Some j) out else Ok out);
      let visited' := visited || b in
      do out2 <- (if visited' then Ok out1 else add_pair l r None (Some j) out1);
      right_inner i n' (S j) visited' out2
    end.
  Fixpoint right_outer (n i : nat) (out : list (list (option lval))) : res (list (list (option lval))) :=
    match n with
    | O => Ok out
    | S n' => do out' <- right_inner i (length (rws l)) 0 false out; right_outer n' (S i) out'
    end.

  (** [cross_join_] (239-257). *)
  Fixpoint cross_right (i n j : nat) (out : list (list (option lval))) : res (list (list (option lval))) :=
    match n with
    | O => Ok out
    | S n' => do out' <- add_pair l r (Some i) (Some j) out; cross_right i n' (S j) out'
    end.
  Fixpoint cross_left (n i : nat) (out : list (list (option lval))) : res (list (list (option lval))) :=
    match n with
    | O => Ok out
    | S n' => do out' <- cross_right i (length (rws r)) 0 out; cross_left n' (S i) out'
    end.
End Join.

(** Joins of tables have the types of document joins. *)
Inductive tjoin := TInner | TFull | TLeft | TRight | TCross.

(** The rows that are written, and the number of rows the result says it has: only [inner_join_] calls
    [set_cardinality]. *)
Definition join_rows (t : tjoin) (p : nat -> nat -> res bool) (l r : chunk) : res (list (list (option lval)) * nat) :=
  let n := length (rws l) in let m := length (rws r) in
  match t with
  | TInner => do out <- inner_left p l r n 0 []; Ok (out, length out)
  | TFull => do '(out, seen) <- outer_left p l r n 0 [] []; do out' <- full_rest l r m 0 seen out; Ok (out', 0)
  | TLeft => do '(out, _) <- outer_left p l r n 0 [] []; Ok (out, 0)
  | TRight => do out <- right_outer p l r m 0 []; Ok (out, 0)
  | TCross => do out <- cross_left l r n 0 []; Ok (out, 0)
  end.
(** [operator_join_t::on_execute_impl] (32-94): the result as the next operator sees it. *)
Definition table_join (t : tjoin) (p : nat -> nat -> res bool) (l r : chunk) : res chunk :=
  do '(out, count) <- join_rows t p l r; Ok {| cols := res_cols l r; rws := firstn count out |}.
