(** Sorting and grouping of tables.  Modelled from components/physical_plan/table/operators: transformation.cpp,
    sort/sort.cpp, sort/sort.hpp, operator_sort.cpp, operator_group.cpp, get/simple_value.cpp and aggregate/*.cpp.
    Not modelled: averages (floating point); columns without a name (reading the alias of such a type is undefined). *)
From Verif Require Import Bytes Outcome ByteOrd IndexModel QueryModel LValModel TblModel.
From Coq Require Import ZArith.
Local Open Scope nat_scope.

(** A value knows the name of its column ([set_alias]). *)
Notation arow := (list (list byte * lval)) (only parsing).

Fixpoint each {A B} (f : A -> res B) (l : list A) : res (list B) :=
  match l with
  | [] => Ok []
  | a :: r => do b <- f a; do bs <- each f r; Ok (b :: bs)
  end.

(** ** Rows and columns *)
(** [transpose] of a chunk (transformation.cpp 7-24); reading a cell as in TblModel. *)
Definition value_of (col : list byte * lty) (o : option lval) : res lval :=
  match o with
  | Some v => if storable (snd col) then Ok v else Err Throw
  | None => Ok (vzero (snd col))
  end.
Definition values_of (cs : list (list byte * lty)) (row : list (option lval)) : res arow :=
  each (fun x => do v <- value_of (fst x) (snd x); Ok (fst (fst x), v)) (combine cs row).
Definition matrix (c : chunk) : res (list arow) := each (values_of (cols c)) (rws c).
(** [transpose] of rows (26-37): there is a value for every column, or the access is out of range. *)
Fixpoint fill (cs : list (list byte * lty)) (row : arow) : res (list (option lval)) :=
  match cs, row with
  | [], _ => Ok []
  | _ :: _, [] => Err UB
  | col :: cs', x :: row' => do o <- put (snd col) (snd x); do r <- fill cs' row'; Ok (o :: r)
  end.
Definition chunk_of (cs : list (list byte * lty)) (m : list arow) : res chunk :=
  do rs <- each (fill cs) m; Ok {| cols := cs; rws := rs |}.

(** ** Sorting *)
(** A key by position or by name (sort.cpp 8-38) and its direction.  The two kinds turn the result of the comparison
    around for opposite directions (11, 24). *)
Inductive skey := ByPos (j : nat) (ascending : bool) | ByName (k : list byte) (ascending : bool).
Definition compare_by (s : skey) (a b : arow) : res comparison :=
  match s with
  | ByPos j asc =>
    match nth_error a j, nth_error b j with
    | Some x, Some y => Ok (if asc then vcompare (snd x) (snd y) else CompOpp (vcompare (snd x) (snd y)))
    | _, _ => Err Throw
    end
  | ByName k asc =>
    let turn c := if asc then CompOpp c else c in
    match lookup beqb k a, lookup beqb k b with
    | None, None => Ok Eq
    | None, Some y => Ok (turn (vcompare VNull y))
    | Some x, None => Ok (turn (vcompare x VNull))
    | Some x, Some y => Ok (turn (vcompare x y))
    end
  end.
(** [sorter_t::operator()] (sort.hpp 31-42): with no difference, the answer is [true]. *)
Fixpoint row_before (ks : list skey) (a b : arow) : res bool :=
  match ks with
  | [] => Ok true
  | s :: r => do c <- compare_by s a b; match c with Lt => Ok true | Gt => Ok false | Eq => row_before r a b end
  end.
(** [operator_sort_t::on_execute_impl] (operator_sort.cpp 20-30) with what [std::sort] makes of the rows. *)
Definition table_sort (sort : list arow -> list arow) (c : chunk) : res chunk :=
  do m <- matrix c; chunk_of (cols c) (sort m).

(** ** Grouping *)
(** [simple_value_t] (simple_value.cpp 14-22). *)
Definition get (k : list byte) (row : arow) : lval := match lookup beqb k row with Some v => v | None => VNull end.

(** The aggregates, and the name each gives its result. *)
Inductive agg := Count | Sum (k : list byte) | Min (k : list byte) | Max (k : list byte).
Definition agg_key (a : agg) : list byte :=
  match a with Count => str "count" | Sum _ => str "sum" | Min _ => str "min" | Max _ => str "max" end.
Definition column_at (k : list byte) (c : chunk) : option column :=
  match index_of k (cols c) with
  | Some j => match nth_error (cols c) j with
              | Some (_, t) => Some {| ctype := t; crows := map (fun row => nth j row None) (rws c) |}
              | None => None
              end
  | None => None
  end.
(** [aggregate_impl] (operator_count.cpp 10-19, operator_sum.cpp 12-33, operator_min.cpp and operator_max.cpp 12-39);
    LValModel for one column. *)
Definition agg_value (a : agg) (c : chunk) : res lval :=
  match a with
  | Count => Ok (VNum TU64 (conv TU64 (Z.of_nat (length (rws c)))))
  | Sum k => match column_at k c with Some col => agg_sum col | None => Ok VNull end
  | Min k => Ok (match column_at k c with Some col => agg_min col | None => VNull end)
  | Max k => Ok (match column_at k c with Some col => agg_max col | None => VNull end)
  end.

(** The columns of the keys, from the first row (operator_group.cpp 46-57): type and name of the field. *)
Definition key_types (keys : list (list byte * list byte)) (m : list arow) : list (list byte * lty) :=
  match m with
  | [] => []
  | row :: _ => flat_map (fun kf => match get (snd kf) row with VNull => [] | v => [(snd kf, type_of v)] end) keys
  end.
(** The keys of a row, each under the name asked for; none when one of them is missing (59-72). *)
Fixpoint key_row (keys : list (list byte * list byte)) (row : arow) : option arow :=
  match keys with
  | [] => Some []
  | (name, f) :: r => match get f row with VNull => None | v => option_map (cons (name, v)) (key_row r row) end
  end.
(** [operator==] of two vectors of values. *)
Fixpoint row_eqb (a b : arow) : bool :=
  match a, b with
  | [], [] => true
  | x :: a', y :: b' => veqb (snd x) (snd y) && row_eqb a' b'
  | _, _ => false
  end.
(** The group of a row (73-88). *)
Fixpoint add_row (k row : arow) (gs : list (arow * list arow)) : list (arow * list arow) :=
  match gs with
  | [] => [(k, [row])]
  | (k', rs) :: r => if row_eqb k k' then (k', rs ++ [row]) :: r else (k', rs) :: add_row k row r
  end.
Definition groups (keys : list (list byte * list byte)) (m : list arow) : list (arow * list arow) :=
  fold_left (fun gs row => match key_row keys row with Some k => add_row k row gs | None => gs end) m [].

(** [operator_aggregate_t::set_value] (operator_aggregate.cpp 11-20): the value goes where a value of the name of the
    aggregate is, or to the end.  The name asked for in the query is a parameter that is not used. *)
Fixpoint set_value (k : list byte) (v : lval) (row : arow) : arow :=
  match row with
  | [] => [(k, v)]
  | x :: r => if beqb (fst x) k then (k, v) :: r else x :: set_value k v r
  end.
(** [calc_aggregate_values] (92-108): one aggregate over all groups, then the column of the last result; without groups
    that of a NULL without a name. *)
Definition calc_one (cs : list (list byte * lty)) (a : agg) (gs : list (arow * list arow)) : res (list (arow * list arow) * (list byte * lty)) :=
  do vs <- each (fun g => do c <- chunk_of cs (snd g); agg_value a c) gs;
  Ok (map (fun x => (set_value (agg_key a) (snd x) (fst (fst x)), snd (fst x))) (combine gs vs),
      match rev vs with [] => ([], TNA) | v :: _ => (agg_key a, type_of v) end).
Fixpoint calc (cs : list (list byte * lty)) (aggs : list (list byte * agg)) (gs : list (arow * list arow)) : res (list (arow * list arow) * list (list byte * lty)) :=
  match aggs with
  | [] => Ok (gs, [])
  | (_, a) :: r =>
    do x <- calc_one cs a gs;
    do y <- calc cs r (fst x);
    Ok (fst y, snd x :: snd y)
  end.
(** [operator_group_t::on_execute_impl] (33-43). *)
Definition table_group (keys : list (list byte * list byte)) (aggs : list (list byte * agg)) (c : chunk) : res chunk :=
  do m <- matrix c;
  do x <- calc (cols c) aggs (groups keys m);
  chunk_of (key_types keys m ++ snd x) (map fst (fst x)).
