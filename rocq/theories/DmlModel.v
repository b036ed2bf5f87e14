(** INSERT and DELETE statements over documents.
    Modelled from components/sql/transformer/impl/ (transform_insert.cpp, transform_delete.cpp),
    components/physical_plan_generator/impl/ (create_plan_insert.cpp, create_plan_delete.cpp) and
    components/physical_plan/collection/operators/ (operator_insert.cpp, operator_delete.cpp).  Conditions are translated by
    SqlModel, SELECT by SelModel; storage, the check of the ids and the removal are those of QueryModel.
    Documents are flat, with their [_id] among their fields; names of columns are names of fields, not paths.
    Not modelled: floating point, ORDER BY in a SELECT below an INSERT, the indexes (IndexModel), collections kept as
    tables.  Asserts are off. *)
From Verif Require Import Bytes Outcome ByteOrd.
From Verif Require TapeModel OidModel.
From Verif Require Import IndexModel QueryModel GroupModel SqlModel SelModel.
Local Open Scope Z_scope.

(** [get_document_id] (document.cpp 1009): [get_string] of [/_id], empty without a string there (document.hpp 154-165),
    read as an id (OidModel.parse: the null id when it is none).  Ids are compared byte by byte, as the numbers here. *)
Definition number_of (s : list byte) : N := unbe (OidModel.parse s).
Definition id_of (fs : list (list byte * dval)) : N :=
  number_of (match lookup beqb (str "_id") fs with Some (DStr s) => s | _ => [] end).
Definition document (fs : list (list byte * dval)) : doc := {| did := id_of fs; fields := fs |}.

(** The loop over the values of a row (transform_insert.cpp 28-34); [fs] are the fields set so far.  The names end before the
    values: the name behind the last is read. *)
Fixpoint fill (cols : list (list byte)) (vals : list node) (fs : list (list byte * dval)) : res (list (list byte * dval)) :=
  match vals with
  | [] => Ok fs
  | v :: vs =>
    match cols with
    | [] => Err UB
    | c :: cs => do x <- node_value v; fill cs vs (set_field c x fs)
    end
  end.
Fixpoint fill_rows (cols : list (list byte)) (rows : list (list node)) : res (list doc) :=
  match rows with
  | [] => Ok []
  | r :: rest => do fs <- fill cols r []; do ds <- fill_rows cols rest; Ok (document fs :: ds)
  end.

(** [document_t::set] from a field of another document (document.cpp 228-262): nothing when it is missing or nested. *)
Definition copy_field (fs : list (list byte * dval)) (k : list byte) (from : doc) (k' : list byte) : list (list byte * dval) :=
  match QueryModel.get_value from k' with Some v => set_field k v fs | None => fs end.
(** [operator_insert] (operator_insert.cpp 12-42): the documents as they are when every pair of names is of equal ones,
    otherwise new ones with the id and the columns of the list. *)
Definition simple (trans : list (list byte * list byte)) : bool := forallb (fun p => beqb (fst p) (snd p)) trans.
Definition id_text (d : doc) : list byte :=
  OidModel.to_string (OidModel.parse (match field d (str "_id") with Some (DStr s) => s | _ => [] end)).
Definition translate (trans : list (list byte * list byte)) (d : doc) : doc :=
  {| did := did d;
     fields := fold_left (fun fs p => copy_field fs (fst p) d (snd p)) trans [(str "_id", DStr (id_text d))] |}.
Definition insert_documents (trans : list (list byte * list byte)) (stored batch : list doc) : list doc * list N :=
  match primary_key_scan stored batch with
  | None => (stored, [])
  | Some ds => (fold_left (fun s d => put (if simple trans then d else translate trans d) s) ds stored, map did ds)
  end.

(** [INSERT INTO t (cols) VALUES rows] (transform_insert.cpp 12-41); without a list of columns [cols] is empty (gram.cpp
    32895, pg_std_list.cpp 5). *)
Definition insert_values (cols : list (list byte)) (rows : list (list node)) (stored : list doc) : res (list doc * list N) :=
  do ds <- fill_rows cols rows; Ok (insert_documents (map (fun c => (c, c)) cols) stored ds).

(** [INSERT INTO t (cols) SELECT ...] (42-67): the names of the scalar expressions of the group node, if there is one,
    stand for the columns; a different number of them is refused. *)
Definition scalar_names (gs : list gexpr) : list (list byte) :=
  concat (map (fun g => match g with GField n _ => [n] | GParam n _ => [n] | GAgg _ _ _ => [] end) gs).
Definition translation (cols : list (list byte)) (gs : list gexpr) : res (list (list byte * list byte)) :=
  match gs with
  | [] => Ok (map (fun c => (c, c)) cols)
  | _ => if (length cols =? length (scalar_names gs))%nat then Ok (combine cols (scalar_names gs)) else Err Throw
  end.
(** The rows a group makes have the id their fields give, and no other. *)
Definition insert_select (digits : Z -> list byte) (cols : list (list byte)) (q : query) (db : list (list byte * list doc))
  (stored : list doc) : res (list doc * list N) :=
  do p <- transform_select digits q;
  do trans <- translation cols (p_group p);
  do rows <- run_plan p db;
  Ok (insert_documents trans stored (map (fun d => document (fields d)) rows)).

(** [DELETE FROM t USING u WHERE w] (transform_delete.cpp 9-30, create_plan_delete.cpp 16-68): without a condition USING is
    not read; of several collections the first is taken. *)
Definition delete_statement (others : list (list doc)) (w : option node) (stored : list doc) : res (list doc * list N) :=
  match w with
  | None => do found <- full_scan (fun d => eval AllTrue [] d None) (-1) stored;
            Ok (delete stored (match found with Some l => l | None => [] end))
  | Some n =>
    do '(e, st) <- transform n no_params;
    match others with
    | [] => do found <- full_scan (fun d => eval e (vals st) d None) (-1) stored;
            Ok (delete stored (match found with Some l => l | None => [] end))
    | us :: _ => delete_join (fun l r => eval e (vals st) l (Some r)) us stored (stored, [])
    end
  end.

(** ** Documents shared by two collections *)
(** Collections hold pointers to documents: [full_scan] passes them on (full_scan.cpp), [operator_insert] stores those of a
    simple insert in the other collection (operator_insert.cpp 25-28), and an update writes through them.  Here a memory of documents and
    collections of addresses; ids are taken to be new in the collection. *)
Record memory := { docs : list doc; colls : list (list byte * list nat) }.
Definition addresses (m : memory) (t : list byte) : list nat := match lookup beqb t (colls m) with Some l => l | None => [] end.
Definition at_address (m : memory) (a : nat) : doc := nth a (docs m) {| did := 0; fields := [] |}.
Definition contents (m : memory) (t : list byte) : list doc := map (at_address m) (addresses m t).
Fixpoint set_coll (t : list byte) (l : list nat) (cs : list (list byte * list nat)) : list (list byte * list nat) :=
  match cs with
  | [] => [(t, l)]
  | (t', l') :: r => if beqb t t' then (t', l) :: r else (t', l') :: set_coll t l r
  end.
(** [INSERT INTO to SELECT * FROM from] *)
Definition share (to from : list byte) (m : memory) : memory :=
  {| docs := docs m; colls := set_coll to (addresses m to ++ addresses m from) (colls m) |}.
(** A change made to every document of a collection. *)
Definition change_all (f : doc -> doc) (t : list byte) (m : memory) : memory :=
  {| docs := map (fun p => if existsb (Nat.eqb (fst p)) (addresses m t) then f (snd p) else snd p)
                 (combine (seq 0 (length (docs m))) (docs m));
     colls := colls m |}.
