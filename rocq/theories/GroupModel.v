(** Grouping, aggregating and sorting documents: components/physical_plan/collection/operators/operator_group.cpp,
    aggregate/*.cpp, sort/sort.*, operator_sort.cpp, and the values they use (components/document/value.cpp,
    document.cpp, document.hpp).  Floating point values are not modelled. *)
From Verif Require Import Bytes Outcome ByteOrd IndexModel QueryModel.
From Verif Require TapeModel.
Local Open Scope Z_scope.

(** ** Grouping *)
(** [document_t::set(pointer, value_t)] (document.hpp 276-337) stores integers as 64 bit ones of their sign. *)
Definition widen (v : dval) : dval :=
  match v with
  | DInt k z =>
    match k with
    | TapeModel.I128 => v
    | _ => DInt (if TapeModel.signed k then TapeModel.I64 else TapeModel.U64) z
    end
  | _ => v
  end.

(** [is_equals_value] (document.cpp 531-571): one type and equal. *)
Definition is_equals_value (a b : dval) : bool :=
  match a, b with
  | DNull, DNull => true
  | DBool x, DBool y => Bool.eqb x y
  | DInt k x, DInt k' y => N.eqb (TapeModel.code k) (TapeModel.code k') && (x =? y)
  | DStr x, DStr y => beqb x y
  | _, _ => false
  end.

(** The new document with the keys (operator_group.cpp 37-48): none when a key has no value. *)
Fixpoint key_values (ks : list (list byte)) (d : doc) : option (list dval) :=
  match ks with
  | [] => Some []
  | k :: r =>
    match get_value d k with
    | None => None
    | Some v => match key_values r d with None => None | Some vs => Some (widen v :: vs) end
    end
  end.

(** [is_equals_documents] (document.cpp 573-575, container/json_object.cpp 110-122) of two such documents, the names of
    the keys being distinct. *)
Fixpoint equal_keys (a b : list dval) : bool :=
  match a, b with
  | [], [] => true
  | x :: a', y :: b' => is_equals_value x y && equal_keys a' b'
  | _, _ => false
  end.

(** The groups: [output_] and [input_documents_] side by side. *)
Notation groups := (list (list dval * list doc)) (only parsing).
(** The search for a group (operator_group.cpp 50-63). *)
Fixpoint add_to (kv : list dval) (d : doc) (gs : groups) : groups :=
  match gs with
  | [] => [(kv, [d])]
  | (kv', ds) :: r => if equal_keys kv kv' then (kv', ds ++ [d]) :: r else (kv', ds) :: add_to kv d r
  end.
(** [create_list_documents] (35-66). *)
Definition group_step (ks : list (list byte)) (gs : groups) (d : doc) : groups :=
  match key_values ks d with None => gs | Some kv => add_to kv d gs end.
Definition group (ks : list (list byte)) (ds : list doc) : groups := fold_left (group_step ks) ds [].

(** ** Aggregates *)
(** The getters of [value_t] (value.cpp 75-85) are [noexcept]: a value that cannot be read ends the process, here
    [Err Throw].  A value without an element is read through a null pointer, [Err UB]. *)
Definition as_int_of (to : ik) (v : option dval) : res Z :=
  match v with
  | None => Err UB
  | Some (DInt k z) => read_as to k z
  | Some _ => Err Throw
  end.
Definition as_bool_of (v : option dval) : res bool :=
  match v with None => Err UB | Some (DBool b) => Ok b | Some _ => Err Throw end.

(** [op] (value.cpp 184-195): a missing operand is zero. *)
Definition operand {A} (zero : A) (get : option dval -> res A) (v : option dval) : res A :=
  match v with None => Ok zero | Some _ => get v end.

(** [sum] (value.cpp 197-228): in the type of the first value that is there.  Signed overflow is undefined, unsigned
    wraps around; a sum of booleans is an [int]; NULL and nested values stay; strings are read even when
    missing, and anything else added to a string is four bytes of its representation (655-669). *)
Definition plus_as (to : ik) (v1 v2 : option dval) : res (option dval) :=
  do a <- operand 0 (as_int_of to) v1; do b <- operand 0 (as_int_of to) v2;
  if TapeModel.signed to then if TapeModel.fits to (a + b) then Ok (Some (DInt to (a + b))) else Err UB
  else Ok (Some (DInt to (TapeModel.cast to (a + b)))).
Definition sum (v1 v2 : option dval) : res (option dval) :=
  match (match v1 with Some v => Some v | None => v2 end) with
  | None => Ok v1
  | Some (DBool _) =>
    do a <- operand false as_bool_of v1; do b <- operand false as_bool_of v2;
    Ok (Some (DInt TapeModel.I32 (Z.b2z a + Z.b2z b)))
  | Some (DInt k _) =>
    match k with
    | TapeModel.I128 => plus_as TapeModel.I128 v1 v2
    | _ => plus_as (if TapeModel.signed k then TapeModel.I64 else TapeModel.U64) v1 v2
    end
  | Some (DStr _) =>
    match v1, v2 with
    | Some (DStr x), Some (DStr y) => Ok (Some (DStr (x ++ y)))
    | Some (DStr x), Some DNull => Ok (Some (DStr (x ++ repeat (byte_of_N 0) 4)))
    | Some (DStr x), Some (DBool _) => Ok (Some (DStr (x ++ repeat (byte_of_N 0) 4)))
    | Some (DStr x), Some (DInt k _) =>
      do z <- as_int_of (if TapeModel.signed k then TapeModel.I64 else TapeModel.U64) v2;
      Ok (Some (DStr (x ++ TapeModel.le4 (Z.to_N (z mod 2 ^ 32)))))
    | _, _ => Err UB
    end
  | Some _ => Ok v1
  end.
(** The loop of [operator_sum_t::aggregate_impl] (operator_sum.cpp 18-22) and the storing of its result, which reads the
    type of the value. *)
Fixpoint sum_loop (acc : option dval) (k : list byte) (ds : list doc) : res (option dval) :=
  match ds with
  | [] => Ok acc
  | d :: r => do acc' <- sum acc (get_value d k); sum_loop acc' k r
  end.
Definition agg_sum (k : list byte) (ds : list doc) : res (option dval) :=
  do s <- sum_loop None k ds; match s with None => Err UB | Some v => Ok (Some (widen v)) end.

(** [operator_count_t] (operator_count.cpp 11-20). *)
Definition agg_count (ds : list doc) : res (option dval) := Ok (Some (DInt TapeModel.U64 (Z.of_nat (length ds)))).

(** [std::min_element] and [std::max_element] with the comparison of operator_min.cpp 17-22, operator_max.cpp 17-22. *)
Definition doc_less (k : list byte) (a b : doc) : res bool :=
  do c <- compare_docs a k b k; Ok (match c with Lt => true | _ => false end).
Fixpoint min_element (k : list byte) (best : doc) (ds : list doc) : res doc :=
  match ds with
  | [] => Ok best
  | d :: r => do b <- doc_less k d best; min_element k (if b then d else best) r
  end.
Fixpoint max_element (k : list byte) (best : doc) (ds : list doc) : res doc :=
  match ds with
  | [] => Ok best
  | d :: r => do b <- doc_less k best d; max_element k (if b then d else best) r
  end.
(** The field of the document found is copied (document.cpp 228-262): nothing when it is missing or nested.  Without
    documents the result is 0 (an [int]). *)
Definition agg_min (k : list byte) (ds : list doc) : res (option dval) :=
  match ds with [] => Ok (Some (DInt TapeModel.I32 0)) | d :: r => do m <- min_element k d r; Ok (get_value m k) end.
Definition agg_max (k : list byte) (ds : list doc) : res (option dval) :=
  match ds with [] => Ok (Some (DInt TapeModel.I32 0)) | d :: r => do m <- max_element k d r; Ok (get_value m k) end.

(** [operator_avg_t] (operator_avg.cpp 12-29): the sum, as a double, over the number of documents; here the two numbers
    before the conversion to double.  Without documents 0. *)
Definition agg_avg (k : list byte) (ds : list doc) : res (Z * Z) :=
  match ds with
  | [] => Ok (0, 1)
  | _ =>
    do s <- sum_loop None k ds;
    match s with
    | None => Err UB
    | Some (DInt _ z) => Ok (z, Z.of_nat (length ds))
    | Some _ => Err Throw
    end
  end.

(** ** Sorting *)
(** [sorter_t::add] (sort.cpp 7-12): the comparison, reversed for a descending key. *)
Definition directed (ascending : bool) (c : comparison) : comparison := if ascending then c else CompOpp c.
(** [sorter_t::operator()] (sort.hpp 26-39). *)
Fixpoint before (ks : list (list byte * bool)) (a b : doc) : res bool :=
  match ks with
  | [] => Ok false
  | (k, asc) :: r =>
    do c <- compare_docs a k b k;
    match directed asc c with Lt => Ok true | Gt => Ok false | Eq => before r a b end
  end.

(** [std::sort] by its contract: when the comparison is a strict weak order on the elements, the result is a permutation
    in which no element comes before one that precedes it; otherwise anything can happen.  [operator_sort_t]
    (operator_sort.cpp 17-26). *)
Definition strict_weak {A} (lt : A -> A -> bool) (l : list A) : Prop :=
  (forall a, In a l -> lt a a = false) /\
  (forall a b c, In a l -> In b l -> In c l -> lt a b = true -> lt b c = true -> lt a c = true) /\
  (forall a b c, In a l -> In b l -> In c l -> lt a b = false -> lt b a = false -> lt b c = false -> lt c b = false ->
     lt a c = false /\ lt c a = false).
