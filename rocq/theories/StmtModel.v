(** Statements in the write-ahead log: components/serialization/serializer.cpp and deserializer.cpp (the msgpack classes),
    components/logical_plan/node_*.cpp, param_storage.cpp, components/expressions/*.cpp, services/wal/dto.cpp 61-90.
    A statement is a tree of plan nodes; it is written as nested msgpack arrays without names (the [key] arguments of
    [append] are not used by the msgpack classes).  Reading an element that is not there or has another type than the code
    takes for granted is undefined behaviour: [via] is a union, [ptr] a plain pointer. *)
From Verif Require Import Bytes Outcome MsgpackModel TapeModel DocPackModel.
Local Open Scope N_scope.

(** * Statements *)

(** [expressions::key_t] (key.hpp 9-121): int32 and uint32 keys. *)
Inductive key := KNone | KStr (s : list byte) | KInt (z : Z) | KUint (n : N).

(** [param_storage] (expression.hpp): a parameter, a key or an expression. *)
Inductive param (E : Type) := PId (n : N) | PKey (k : key) | PExpr (e : E).
Arguments PId {E}. Arguments PKey {E}. Arguments PExpr {E}.

(** Expressions; [ENull] is the null pointer.  Types are the numbers of the enumerators (forward.hpp 21-70). *)
Inductive expr :=
| ENull
| ECmp (t : N) (kl kr : key) (v : N) (ch : list expr)   (* compare_expression_t *)
| EAgg (t : N) (k : key) (ps : list (param expr))       (* aggregate_expression_t *)
| EScalar (t : N) (k : key) (ps : list (param expr))    (* scalar_expression_t *)
| ESort (o : Z) (k : key).                              (* sort_expression_t *)

(** [update_expr_t] (update_expression.hpp); [UNull] is the null pointer in [left_] or [right_]. *)
Inductive upd :=
| UNull
| USet (k : key) (l : upd)
| UGet (k : key) (side : N)
| UConst (id : N)
| UCalc (t : N) (l r : upd).

(** [collection_full_name_t] (collection_full_name.hpp 12-50). *)
Record coll := { uid : list byte; database : list byte; schema_name : list byte; collection : list byte }.
Definition no_coll : coll := {| uid := []; database := []; schema_name := []; collection := [] |}.

(** A column of a table: its name and the number of its type. *)
Notation column := (list byte * N)%type (only parsing).

(** Plan nodes over documents of type [D].  [NNull] is the null pointer.  Simplifications: the children of an update or a
    delete are the match and the limit given to the constructor (nothing appends others); children and expressions are
    there where some code adds them (transform_select.cpp 29-64, 99, 182-213). *)
Inductive node (D : Type) :=
| NNull
| NAggregate (c : coll) (ch : list (node D))
| NCreateColl (c : coll) (columns : list column)
| NCreateDb (c : coll)
| NCreateIndex (t : N) (c : coll) (name : list byte) (ks : list key)
| NData (docs : list D)
| NChunk (rows : list (list scalar))
| NDelete (c from : coll) (mc : coll) (es : list expr) (lc : coll) (limit : Z)
| NDropColl (c : coll)
| NDropDb (c : coll)
| NDropIndex (c : coll) (name : list byte)
| NInsert (c : coll) (ch : list (node D)) (trans : list (key * key))
| NJoin (t : N) (c : coll) (ch : list (node D)) (es : list expr)
| NLimit (c : coll) (limit : Z)
| NMatch (c : coll) (es : list expr)
| NGroup (c : coll) (es : list expr)
| NSort (c : coll) (es : list expr)
| NFunction (name : list byte) (args : list N) (ch : list (node D))
| NUpdate (c from : coll) (mc : coll) (es : list expr) (lc : coll) (limit : Z) (us : list upd) (upsert : bool).
Arguments NNull {D}. Arguments NAggregate {D}. Arguments NCreateColl {D}. Arguments NCreateDb {D}. Arguments NCreateIndex {D}.
Arguments NData {D}. Arguments NChunk {D}. Arguments NDelete {D}. Arguments NDropColl {D}. Arguments NDropDb {D}.
Arguments NDropIndex {D}. Arguments NInsert {D}. Arguments NJoin {D}. Arguments NLimit {D}. Arguments NMatch {D}.
Arguments NGroup {D}. Arguments NSort {D}. Arguments NFunction {D}. Arguments NUpdate {D}.

(** [storage_parameters] (param_storage.hpp 30-43): values are elements of one tape, in the order of the hash map.  [None]
    is a [value_t] made without an element. *)
Record params := { ptape : doc; pvals : list (N * option nat) }.

(** The numbers of [serialization_type] (serializer.hpp 27-56). *)
Definition T_aggregate := 0. Definition T_create_coll := 1. Definition T_create_db := 2. Definition T_create_index := 3.
Definition T_data := 4. Definition T_delete := 5. Definition T_drop_coll := 6. Definition T_drop_db := 7. Definition T_drop_index := 8.
Definition T_insert := 9. Definition T_join := 10. Definition T_limit := 11. Definition T_match := 12. Definition T_group := 13.
Definition T_sort := 14. Definition T_function := 15. Definition T_update := 16.
Definition T_compare := 17. Definition T_agg_expr := 18. Definition T_scalar := 19. Definition T_sort_expr := 20.
Definition T_upd_expr := 21. Definition T_params := 22.

(** * Writing *)

(** [start_array] (serializer.cpp 239). *)
Definition arr (n : nat) : list byte := enc_arr_head (N.of_nat n).
Definition ser_type (t : N) : list byte := enc_uint t.

Section List.
  Context {A : Type}.
  Variable f : A -> res (list byte).
  Fixpoint ser_all (l : list A) : res (list byte) :=
    match l with [] => Ok [] | x :: r => do a <- f x; do b <- ser_all r; Ok (a ++ b) end.
  (** [append] of a vector (13-69): the array and its elements. *)
  Definition ser_list (l : list A) : res (list byte) := do b <- ser_all l; Ok (arr (length l) ++ b).
End List.

Definition ser_str (s : list byte) : list byte := enc (MStr s).
(** [append(key_t)] (301-311). *)
Definition ser_key (k : key) : list byte :=
  match k with KStr s => ser_str s | KInt z => pack_int z | KUint n => enc_uint n | KNone => enc MNil end.
(** [append(collection_full_name_t)] (71-76): two of the four names. *)
Definition ser_coll (c : coll) : list byte := arr 2 ++ ser_str (database c) ++ ser_str (collection c).
(** [append(param_storage)] (78-93). *)
Definition ser_param {E} (f : E -> res (list byte)) (p : param E) : res (list byte) :=
  match p with PId n => Ok (enc_uint n) | PKey k => Ok (ser_key k) | PExpr e => f e end.

(** [serialize_impl] of compare_expression.cpp 114-123, aggregate_expression.cpp 100-107, scalar_expression.cpp 100-107,
    sort_expression.cpp 47-53; a null pointer is followed. *)
Fixpoint ser_expr (e : expr) : res (list byte) :=
  match e with
  | ENull => Err UB
  | ECmp t kl kr v ch =>
    do b <- ser_list ser_expr ch;
    Ok (arr 6 ++ ser_type T_compare ++ enc_uint t ++ ser_key kl ++ ser_key kr ++ enc_uint v ++ b)
  | EAgg t k ps =>
    do b <- ser_list (ser_param ser_expr) ps; Ok (arr 4 ++ ser_type T_agg_expr ++ enc_uint t ++ ser_key k ++ b)
  | EScalar t k ps =>
    do b <- ser_list (ser_param ser_expr) ps; Ok (arr 4 ++ ser_type T_scalar ++ enc_uint t ++ ser_key k ++ b)
  | ESort o k => Ok (arr 3 ++ ser_type T_sort_expr ++ pack_int o ++ ser_key k)
  end.

(** update_expression.cpp 161-168, 229-236, 318-324, 354-361: both operands are written, a null pointer is followed. *)
Fixpoint ser_upd (u : upd) : res (list byte) :=
  match u with
  | UNull => Err UB
  | USet k l => do b <- ser_upd l; Ok (arr 4 ++ ser_type T_upd_expr ++ enc_uint 0 ++ ser_key k ++ b)
  | UGet k side => Ok (arr 4 ++ ser_type T_upd_expr ++ enc_uint 1 ++ ser_key k ++ enc_uint side)
  | UConst id => Ok (arr 3 ++ ser_type T_upd_expr ++ enc_uint 2 ++ enc_uint id)
  | UCalc t l r => do a <- ser_upd l; do b <- ser_upd r; Ok (arr 4 ++ ser_type T_upd_expr ++ enc_uint t ++ a ++ b)
  end.

(** node_match.cpp 37-43: [front] of an empty vector is undefined. *)
Definition ser_match (c : coll) (es : list expr) : res (list byte) :=
  match es with [] => Err UB | e :: _ => do b <- ser_expr e; Ok (arr 3 ++ ser_type T_match ++ ser_coll c ++ b) end.
(** node_limit.cpp 44-50. *)
Definition ser_limit (c : coll) (limit : Z) : list byte := arr 3 ++ ser_type T_limit ++ ser_coll c ++ pack_int limit.
Definition ser_two (p : key * key) : res (list byte) := Ok (arr 2 ++ ser_key (fst p) ++ ser_key (snd p)).

Section Documents.
  Variable pack_floating : doc -> nat -> res (list byte).
  Notation D := (doc * tree)%type.
  Definition ser_doc (x : D) : res (list byte) := pack_tree pack_floating (fst x) (snd x).

  (** [serialize_impl] of node_*.cpp.  A join does not write its expressions (node_join.cpp 50-57), a create its columns
      (node_create_collection.cpp 31-36), a delete its second collection (node_delete.cpp 61-67), a function its children
      (node_function.cpp 53-59).  [documents()] of a data chunk throws [bad_variant_access] (node_data.cpp 31-33, 71-77). *)
  Fixpoint ser_node (n : node D) : res (list byte) :=
    match n with
    | NNull => Err UB
    | NAggregate c ch => do b <- ser_list ser_node ch; Ok (arr 3 ++ ser_type T_aggregate ++ ser_coll c ++ b)
    | NCreateColl c _ => Ok (arr 2 ++ ser_type T_create_coll ++ ser_coll c)
    | NCreateDb c => Ok (arr 2 ++ ser_type T_create_db ++ ser_coll c)
    | NCreateIndex t c name ks =>
      do b <- ser_list (fun k => Ok (ser_key k)) ks;
      Ok (arr 5 ++ ser_type T_create_index ++ enc_uint t ++ ser_coll c ++ ser_str name ++ b)
    | NData docs => do b <- ser_list ser_doc docs; Ok (arr 2 ++ ser_type T_data ++ b)
    | NChunk _ => Err Throw
    | NDelete c _ mc es lc limit =>
      do m <- ser_match mc es;
      Ok (arr 3 ++ ser_type T_delete ++ ser_coll c ++ arr 2 ++ m ++ ser_limit lc limit)
    | NDropColl c => Ok (arr 2 ++ ser_type T_drop_coll ++ ser_coll c)
    | NDropDb c => Ok (arr 2 ++ ser_type T_drop_db ++ ser_coll c)
    | NDropIndex c name => Ok (arr 3 ++ ser_type T_drop_index ++ ser_coll c ++ ser_str name)
    | NInsert c ch trans =>
      do b <- ser_list ser_node ch; do t <- ser_list ser_two trans;
      Ok (arr 4 ++ ser_type T_insert ++ ser_coll c ++ b ++ t)
    | NJoin t c ch _ => do b <- ser_list ser_node ch; Ok (arr 4 ++ ser_type T_join ++ enc_uint t ++ ser_coll c ++ b)
    | NLimit c limit => Ok (ser_limit c limit)
    | NMatch c es => ser_match c es
    | NGroup c es => do b <- ser_list ser_expr es; Ok (arr 3 ++ ser_type T_group ++ ser_coll c ++ b)
    | NSort c es => do b <- ser_list ser_expr es; Ok (arr 3 ++ ser_type T_sort ++ ser_coll c ++ b)
    | NFunction name args _ =>
      do b <- ser_list (fun a => Ok (enc_uint a)) args; Ok (arr 3 ++ ser_type T_function ++ ser_str name ++ b)
    | NUpdate c from mc es lc limit us upsert =>
      do m <- ser_match mc es; do u <- ser_list ser_upd us;
      Ok (arr 6 ++ ser_type T_update ++ ser_coll c ++ ser_coll from ++ (arr 2 ++ m ++ ser_limit lc limit) ++ u ++ enc (MBool upsert))
    end.

  (** [parameter_node_t::serialize] (param_storage.cpp 36-48); a value without an element has no document to read. *)
  Definition ser_pair (d : doc) (p : N * option nat) : res (list byte) :=
    do b <- (match snd p with Some i => pack_element pack_floating d i | None => Err UB end);
    Ok (arr 2 ++ enc_uint (fst p) ++ b).
  Definition ser_params (p : params) : res (list byte) :=
    do b <- ser_list (ser_pair (ptape p)) (pvals p); Ok (arr 2 ++ ser_type T_params ++ b).

  (** [pack] (dto.cpp 61-76): the payload of a record. *)
  Definition ser_entry (crc id : N) (n : node D) (p : params) : res (list byte) :=
    do a <- ser_node n; do b <- ser_params p; Ok (arr 4 ++ enc_uint crc ++ enc_uint id ++ a ++ b).
End Documents.

(** * Reading *)

(** [advance_array], [ptr[index]] (deserializer.cpp 205-207). *)
Definition via_array (m : mp) : res (list mp) := match m with MArr l => Ok l | _ => Err UB end.
Definition item (l : list mp) (i : nat) : res mp := match nth_error l i with Some m => Ok m | None => Err UB end.
Definition sub_array (l : list mp) (i : nat) : res (list mp) := do m <- item l i; via_array m.
(** The bits of a number, as unsigned and as signed. *)
Definition via_u64 (m : mp) : res N :=
  match m with MUint n => Ok n | MNeg n => Ok (2 ^ 64 - 1 - n) | _ => Err UB end.
Definition via_i64 (m : mp) : res Z := do n <- via_u64 m; Ok (of_pattern I64 n).
Definition via_bool (m : mp) : res bool := match m with MBool b => Ok b | _ => Err UB end.
Definition via_str (m : mp) : res (list byte) := match m with MStr s => Ok s | _ => Err UB end.

(** Enumerations of 8 bits (211-213, 223-253), parameter ids of 16 bits (255-257). *)
Definition get_u8 (l : list mp) (i : nat) : res N := do m <- item l i; do n <- via_u64 m; Ok (n mod 2 ^ 8).
Definition get_id (m : mp) : res N := do n <- via_u64 m; Ok (n mod 2 ^ 16).
Definition get_order (l : list mp) (i : nat) : res Z := do m <- item l i; do z <- via_i64 m; Ok (cast I8 z).
Definition str_at (l : list mp) (i : nat) : res (list byte) := do m <- item l i; via_str m.
(** [deserialize_key] (259-269): a number that is not negative is an int32, a negative one a uint32. *)
Definition get_key (m : mp) : key :=
  match m with
  | MUint n => KInt (of_pattern I32 n)
  | MNeg n => KUint ((2 ^ 64 - 1 - n) mod 2 ^ 32)
  | MStr s => KStr s
  | _ => KNone
  end.
Definition key_at (l : list mp) (i : nat) : res key := do m <- item l i; Ok (get_key m).
(** [deserialize_collection] (300-305). *)
Definition get_coll (l : list mp) (i : nat) : res coll :=
  do c <- sub_array l i; do a <- str_at c 0; do b <- str_at c 1;
  Ok {| uid := []; database := a; schema_name := []; collection := b |}.

Section Lists.
  Context {A B : Type}.
  Variable f : A -> res B.
  Fixpoint read_all (l : list A) : res (list B) :=
    match l with [] => Ok [] | x :: r => do y <- f x; do ys <- read_all r; Ok (y :: ys) end.
End Lists.
Definition read_list {B} (f : mp -> res B) (l : list mp) (i : nat) : res (list B) := do a <- sub_array l i; read_all f a.

Definition current_type (l : list mp) : res N := get_u8 l 0.
Definition is_union (t : N) : bool := (t =? 10) || (t =? 11) || (t =? 12).

(** [deserialize_param_storage] (307-315): a parameter is expected as a negative number. *)
Definition get_param (f : mp -> res expr) (m : mp) : res (param expr) :=
  match m with
  | MNeg _ => do n <- get_id m; Ok (PId n)
  | MArr _ => do e <- f m; Ok (PExpr e)
  | _ => Ok (PKey (get_key m))
  end.

(** [expression_i::deserialize] (expression.cpp 31-45) and compare_expression.cpp 49-71, aggregate_expression.cpp
    55-64, scalar_expression.cpp 56-65, sort_expression.cpp 24-28.  Fuel: the depth of
    the object. *)
Fixpoint get_expr (fuel : nat) (m : mp) : res expr :=
  match fuel with
  | O => Err Diverge
  | S f =>
    do l <- via_array m;
    do ty <- current_type l;
    if ty =? T_compare then
      do t <- get_u8 l 1; do kl <- key_at l 2; do kr <- key_at l 3;
      do p <- item l 4; do v <- get_id p; do ch <- read_list (get_expr f) l 5;
      Ok (if is_union t then ECmp t KNone KNone 0 ch
          else match kr with KNone => ECmp t kl KNone v [] | _ => ECmp t kl kr 0 [] end)
    else if ty =? T_agg_expr then
      do t <- get_u8 l 1; do k <- key_at l 2; do ps <- read_list (get_param (get_expr f)) l 3; Ok (EAgg t k ps)
    else if ty =? T_scalar then
      do t <- get_u8 l 1; do k <- key_at l 2; do ps <- read_list (get_param (get_expr f)) l 3; Ok (EScalar t k ps)
    else if ty =? T_sort_expr then do o <- get_order l 1; do k <- key_at l 2; Ok (ESort o k)
    else Ok ENull
  end.

(** [update_expr_t::deserialize] (update_expression.cpp 73-102, 170-176, 238-241, 326-328, 363-372); without an
    enumerator the function ends without a result. *)
Fixpoint get_upd (fuel : nat) (m : mp) : res upd :=
  match fuel with
  | O => Err Diverge
  | S f =>
    do l <- via_array m;
    do t <- get_u8 l 1;
    if t =? 0 then do k <- key_at l 2; do x <- item l 3; do u <- get_upd f x; Ok (USet k u)
    else if t =? 1 then do k <- key_at l 2; do s <- get_u8 l 3; Ok (UGet k s)
    else if t =? 2 then do x <- item l 2; do id <- get_id x; Ok (UConst id)
    else if t <=? 18 then
      do x <- item l 2; do u <- get_upd f x; do y <- item l 3; do v <- get_upd f y; Ok (UCalc t u v)
    else Err UB
  end.

Fixpoint mdepth (m : mp) : nat :=
  match m with
  | MArr l => S (fold_right (fun x n => Nat.max (mdepth x) n) O l)
  | MMap l => S (fold_right (fun kv n => Nat.max (Nat.max (mdepth (fst kv)) (mdepth (snd kv))) n) O l)
  | _ => O
  end.
Definition read_expr (m : mp) : res expr := get_expr (S (mdepth m)) m.
Definition read_upd (m : mp) : res upd := get_upd (S (mdepth m)) m.

(** node_match.cpp 13-17, 45-53. *)
Definition get_match (l : list mp) : res (coll * list expr) :=
  do c <- get_coll l 1; do m <- item l 2; do e <- read_expr m;
  Ok (c, match e with ENull => [] | _ => [e] end).
(** node_limit.cpp 30-34; [limit_t] takes an [int]. *)
Definition get_limit (l : list mp) : res (coll * Z) :=
  do c <- get_coll l 1; do m <- item l 2; do z <- via_i64 m; Ok (c, cast I32 z).
(** node_insert.cpp 36-44. *)
Definition get_two (m : mp) : res (key * key) := do l <- via_array m; do a <- key_at l 0; do b <- key_at l 1; Ok (a, b).

Section ReadNodes.
  Variable widen : N -> N.
  Variable name_first : bool.
  Notation D := (doc * tree)%type.
  (** [deserialize_document] (296-298). *)
  Definition get_doc (m : mp) : res D := do '(t, d) <- to_document widen name_first m; Ok (d, t).

  (** [node_t::deserialize] (node.cpp 88-130) and the functions of the nodes. *)
  Fixpoint get_node (fuel : nat) (m : mp) : res (node D) :=
    match fuel with
    | O => Err Diverge
    | S f =>
      do l <- via_array m;
      do ty <- current_type l;
      if ty =? T_aggregate then do c <- get_coll l 1; do ch <- read_list (get_node f) l 2; Ok (NAggregate c ch)
      else if ty =? T_create_coll then do c <- get_coll l 1; Ok (NCreateColl c [])
      else if ty =? T_create_db then do c <- get_coll l 1; Ok (NCreateDb c)
      else if ty =? T_create_index then
        do t <- get_u8 l 1; do c <- get_coll l 2; do s <- str_at l 3; do ks <- read_list (fun m => Ok (get_key m)) l 4;
        Ok (NCreateIndex t c s ks)
      else if ty =? T_data then do ds <- read_list get_doc l 1; Ok (NData ds)
      else if ty =? T_delete then
        do c <- get_coll l 1; do ch <- sub_array l 2;
        do a <- sub_array ch 0; do '(mc, es) <- get_match a; do b <- sub_array ch 1; do '(lc, z) <- get_limit b;
        Ok (NDelete c no_coll mc es lc z)
      else if ty =? T_drop_coll then do c <- get_coll l 1; Ok (NDropColl c)
      else if ty =? T_drop_db then do c <- get_coll l 1; Ok (NDropDb c)
      else if ty =? T_drop_index then do c <- get_coll l 1; do s <- str_at l 2; Ok (NDropIndex c s)
      else if ty =? T_insert then
        do c <- get_coll l 1; do ch <- read_list (get_node f) l 2; do ts <- read_list get_two l 3; Ok (NInsert c ch ts)
      else if ty =? T_join then
        do t <- get_u8 l 1; do c <- get_coll l 2; do ch <- read_list (get_node f) l 3; Ok (NJoin t c ch [])
      else if ty =? T_limit then do '(c, z) <- get_limit l; Ok (NLimit c z)
      else if ty =? T_match then do '(c, es) <- get_match l; Ok (NMatch c es)
      else if ty =? T_group then do c <- get_coll l 1; do es <- read_list read_expr l 2; Ok (NGroup c es)
      else if ty =? T_sort then do c <- get_coll l 1; do es <- read_list read_expr l 2; Ok (NSort c es)
      else if ty =? T_function then do s <- str_at l 1; do a <- read_list get_id l 2; Ok (NFunction s a [])
      else if ty =? T_update then
        do c <- get_coll l 1; do from <- get_coll l 2; do ch <- sub_array l 3;
        do a <- sub_array ch 0; do '(mc, es) <- get_match a; do b <- sub_array ch 1; do '(lc, z) <- get_limit b;
        do us <- read_list read_upd l 4; do x <- item l 5; do up <- via_bool x;
        Ok (NUpdate c from mc es lc z us up)
      else Ok NNull
    end.
  Definition read_node (m : mp) : res (node D) := get_node (S (mdepth m)) m.

  (** [deserialize_value] (275-294) and [add_parameter] (param_storage.hpp 50-52): a value is built at the end of the tape;
      a parameter that is there already is kept. *)
  Definition get_value (m : mp) (d : doc) : option nat * doc :=
    match primitive widen m with Some s => (Some (next_element d), build 0 d s) | None => (None, d) end.
  Definition emplace (id : N) (v : option nat) (l : list (N * option nat)) : list (N * option nat) :=
    if existsb (fun p => fst p =? id) l then l else l ++ [(id, v)].
  Fixpoint get_params (l : list mp) (p : params) : res params :=
    match l with
    | [] => Ok p
    | m :: r =>
      do a <- via_array m; do x <- item a 0; do id <- get_id x; do y <- item a 1;
      let '(v, d) := get_value y (ptape p) in
      get_params r {| ptape := d; pvals := emplace id v (pvals p) |}
    end.
  (** [parameter_node_t::deserialize] (param_storage.cpp 50-59). *)
  Definition read_params (m : mp) : res params :=
    do l <- via_array m; do a <- sub_array l 1; get_params a {| ptape := {| tape := []; sbuf := [] |}; pvals := [] |}.

  (** [unpack] (dto.cpp 78-90), the same in [read_record] (wal.cpp 400-409). *)
  Definition read_entry (m : mp) : res (N * N * node D * params) :=
    do l <- via_array m; do x <- item l 0; do crc <- via_u64 x; do y <- item l 1; do id <- via_u64 y;
    do a <- item l 2; do n <- read_node a; do b <- item l 3; do p <- read_params b; Ok (crc, id, n, p).
End ReadNodes.
