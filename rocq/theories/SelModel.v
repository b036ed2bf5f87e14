(** SELECT statements over collections of documents: from the tree of the parser to the documents returned.
    Modelled from components/sql/transformer/impl/transform_select.cpp, components/physical_plan_generator/impl/
    (create_plan_aggregate.cpp, create_plan_match.cpp, create_plan_group.cpp, create_plan_sort.cpp) and
    components/physical_plan/collection/operators/ (aggregation.cpp, operator_group.cpp).
    The condition is translated by SqlModel, the operators are those of QueryModel and GroupModel.
    Not modelled: joins (JoinModel has the operator), functions in FROM and WHERE, avg (floating point), indexes (IndexModel),
    a name that two columns of the result share, collections kept as tables. *)
From Verif Require Import Bytes Outcome ByteOrd.
From Verif Require TapeModel.
From Verif Require Import IndexModel QueryModel GroupModel SqlModel.
From Coq Require Import Sorting.Permutation Sorting.Sorted.
Local Open Scope Z_scope.

(** [ResTarget]: an element of the list of results, with its alias ([name], null without one). *)
Inductive target :=
| TStar                                                                        (* ColumnRef that starts with a star *)
| TCol (prefix : list (list byte)) (name : list byte) (alias : option (list byte))   (* ColumnRef *)
| TConst (n : node) (alias : option (list byte))                               (* A_Const or TypeCast *)
| TFunc (f : list byte) (args : list (list (list byte) * list byte)) (alias : option (list byte))
                                              (* FuncCall of columns; for a star the list of arguments is empty *)
| TOther.                                                                      (* any other expression *)

(** [SelectStmt], the parts of it that a query over documents uses; the parser fills all of them. *)
Record query := {
  q_distinct : bool; q_targets : list target; q_from : list (list byte); q_where : option node;
  q_group : list (list byte); q_having : option node; q_order : list (list byte * bool);
  q_limit : option Z; q_offset : option Z }.

(** The expressions of the group node: a field under a name, a constant under a name (its value is a parameter), an
    aggregate under a name. *)
Inductive gexpr := GField (name field : list byte) | GParam (name : list byte) (id : N) | GAgg (f name field : list byte).

(** The text [get_value] gives for a constant (transfrom_common.cpp 8-38), the name of its column without an alias.
    Only [to_string] of small integers is needed below; the decimal digits are left to a function. *)
Definition const_name (digits : Z -> list byte) (n : node) : list byte :=
  match n with
  | Cast (LStr s) _ => if beqb s (str "t") then str "true" else str "false"
  | Lit (LStr s) => s
  | Lit (LInt z) => digits z
  | _ => []
  end.

(** The loop over the list of results (transform_select.cpp 109-172).  A star adds nothing (138-141).  The argument of a
    function is the first name of its path (117-118) - of the empty list there is no first; the name of a column is the
    last of its path (146, 151). *)
Fixpoint transform_targets (digits : Z -> list byte) (ts : list target) (st : pstore) : res (list gexpr * pstore) :=
  match ts with
  | [] => Ok ([], st)
  | t :: r =>
    do '(g, s1) <-
      match t with
      | TStar => Ok ([], st)
      | TCol _ name alias => Ok ([match alias with Some a => GField a name | None => GField name name end], st)
      | TConst n alias =>
        do v <- node_value n;
        let (id, s1) := add_parameter v st in
        Ok ([GParam (match alias with Some a => a | None => const_name digits n end) id], s1)
      | TFunc f args alias =>
        match args with
        | [] => Err UB
        | (prefix, name) :: _ =>
          let arg := match prefix with p :: _ => p | [] => name end in
          Ok ([GAgg f (match alias with Some a => a | None => f ++ str "(" ++ arg ++ str ")" end) arg], st)
        end
      | TOther => Err Throw
      end;
    do '(gs, s2) <- transform_targets digits r s1;
    Ok (g ++ gs, s2)
  end.

(** [logical_plan]: the collection, the predicate, the group node when it has expressions, and the keys of the sort
    node. *)
Record plan := { p_from : list byte; p_match : option expr; p_group : list gexpr; p_sort : list (list byte * bool);
  p_params : list (N * dval) }.
(** [transform_select] (84-225).  FROM is never a null pointer (the parser makes an empty list, pg_std_list.cpp 5), and its
    first element is taken (92).  GROUP BY (191-194), HAVING, DISTINCT, LIMIT and OFFSET are not read. *)
Definition transform_select (digits : Z -> list byte) (q : query) : res plan :=
  match q_from q with
  | [] => Err UB
  | t :: _ =>
    do '(gs, s1) <- transform_targets digits (q_targets q) no_params;
    do '(m, s2) <- match q_where q with
                   | None => Ok (None, s1)
                   | Some n => do '(e, s2) <- transform n s1; Ok (Some e, s2)
                   end;
    Ok {| p_from := t; p_match := m; p_group := gs; p_sort := q_order q; p_params := vals s2 |}
  end.

(** [create_plan_group] (create_plan_group.cpp 16-31, 33-92): the keys and the aggregates.  The first parameter of a
    constant is not a key, [std::get] throws (23-25); a function that is no aggregate is left out (86-88). *)
Definition aggregate (f : list byte) : bool :=
  beqb f (str "count") || beqb f (str "sum") || beqb f (str "min") || beqb f (str "max").
Fixpoint group_parts (gs : list gexpr) : res (list (list byte * list byte) * list (list byte * list byte * list byte)) :=
  match gs with
  | [] => Ok ([], [])
  | g :: r =>
    match g with
    | GParam _ _ => Err Throw
    | GField name f => do '(ks, vs) <- group_parts r; Ok ((name, f) :: ks, vs)
    | GAgg f name fld => do '(ks, vs) <- group_parts r; Ok (ks, if aggregate f then (f, name, fld) :: vs else vs)
    end
  end.

(** [document_t::set] of a field. *)
Fixpoint set_field (k : list byte) (v : dval) (fs : list (list byte * dval)) : list (list byte * dval) :=
  match fs with
  | [] => [(k, v)]
  | (k', v') :: r => if beqb k k' then (k', v) :: r else (k', v') :: set_field k v r
  end.
Definition run_aggregate (f fld : list byte) (ds : list doc) : res (option dval) :=
  if beqb f (str "count") then agg_count ds
  else if beqb f (str "sum") then agg_sum fld ds
  else if beqb f (str "min") then agg_min fld ds
  else agg_max fld ds.
(** [calc_aggregate_values] (operator_group.cpp 69-81) for one group: the values are set in the order of the list. *)
Fixpoint aggregates (vs : list (list byte * list byte * list byte)) (ds : list doc) (fs : list (list byte * dval)) :
  res (list (list byte * dval)) :=
  match vs with
  | [] => Ok fs
  | (f, name, fld) :: r =>
    do v <- run_aggregate f fld ds;
    aggregates r ds (match v with Some v => set_field name v fs | None => fs end)
  end.
Fixpoint group_rows (names : list (list byte)) (vs : list (list byte * list byte * list byte))
  (gs : list (list dval * list doc)) : res (list doc) :=
  match gs with
  | [] => Ok []
  | (kv, ds) :: r =>
    do fs <- aggregates vs ds (combine names kv);
    do rest <- group_rows names vs r;
    Ok ({| did := 0%N; fields := fs |} :: rest)
  end.
(** [operator_group_t] with the keys and the aggregates of the plan (GroupModel.group makes the groups).  The documents it
    makes have no id of their own, here 0. *)
Definition run_group (gs : list gexpr) (ds : list doc) : res (list doc) :=
  match gs with
  | [] => Ok ds
  | _ => do '(ks, vs) <- group_parts gs; group_rows (map fst ks) vs (group (map snd ks) ds)
  end.

(** [aggregation::on_prepare_impl] (aggregation.cpp 19-45): match, or all documents; then group; then sort.  There is no
    limit in the plan ([limit_t::unlimit], -1). *)
Definition collection (db : list (list byte * list doc)) (t : list byte) : list doc :=
  match lookup beqb t db with Some ds => ds | None => [] end.
Definition run_plan (p : plan) (db : list (list byte * list doc)) : res (list doc) :=
  let ds := collection db (p_from p) in
  do found <- match p_match p with
              | Some e => full_scan (fun d => eval e (p_params p) d None) (-1) ds
              | None => transfer_scan (-1) ds
              end;
  run_group (p_group p) (match found with Some l => l | None => [] end).

(** What [std::sort] may return: when the comparison answers on every two rows and is a strict weak order, a permutation
    in which no row comes before one that precedes it.  Without a sort node (no keys) the rows as they are. *)
Definition sorted (ks : list (list byte * bool)) (rows out : list doc) : Prop :=
  match ks with
  | [] => out = rows
  | _ => exists lt, (forall a b, In a rows -> In b rows -> before ks a b = Ok (lt a b)) /\ strict_weak lt rows /\
           Permutation rows out /\ StronglySorted (fun a b => lt b a = false) out
  end.

(** The rows of a query before they are sorted, and the results it may return. *)
Definition select_rows (digits : Z -> list byte) (q : query) (db : list (list byte * list doc)) : res (list doc) :=
  do p <- transform_select digits q; run_plan p db.
Definition selects (digits : Z -> list byte) (q : query) (db : list (list byte * list doc)) (out : list doc) : Prop :=
  exists rows, select_rows digits q db = Ok rows /\ sorted (q_order q) rows out.
