(** Schemas and changes of schemas (components/catalog/schema.cpp, table_metadata.cpp,
    transaction/schema_diff.cpp, transaction/metadata_diff.cpp), with the types of columns
    (components/types/types.cpp). *)
From Verif Require Import Bytes Outcome ByteOrd OMap.

Notation bstr := (list byte) (only parsing).

(** types.hpp 437-530: the extension of a type.  [x_more] stands for everything a list, array, map,
    struct, decimal ... type holds; 0 is the plain extension, which holds the alias only. *)
Record ext := Ext { x_more : N; x_alias : bstr }.
(** types.hpp 353-411: the logical type and the extension, which may be null. *)
Record ty := Ty { t_kind : N; t_ext : option ext }.

(** types.cpp 284-287: the extension is dereferenced (an assert guards it in debug builds). *)
Definition alias (t : ty) : res bstr :=
  match t_ext t with Some x => Ok (x_alias x) | None => Err UB end.
(** types.cpp 268-275. *)
Definition set_alias (t : ty) (a : bstr) : ty :=
  Ty (t_kind t) (Some (Ext (match t_ext t with Some x => x_more x | None => 0%N end) a)).
(** types.cpp 70-114, copy assignment: without an extension on the right, the left one stays. *)
Definition assign (t other : ty) : ty :=
  Ty (t_kind other) (match t_ext other with Some x => Some x | None => t_ext t end).

(** types.hpp 424-435. *)
Record desc := Desc { d_id : N; d_req : bool; d_doc : bstr }.
Definition column : Type := ty * desc.

(** catalog_error.hpp. *)
Inductive smistake := DuplicateColumn | MissingPrimaryKey | FieldMissing.

Record schema := Schema {
  s_cols : list column;
  s_pk : list N;
  s_err : option smistake;
  s_high : N
}.

Fixpoint aliases (cs : list column) : res (list bstr) :=
  match cs with
  | [] => Ok []
  | c :: r => do a <- alias (fst c); do l <- aliases r; Ok (a :: l)
  end.
Definition mem_str (a : bstr) (l : list bstr) : bool := existsb (beqb a) l.
Fixpoint dup_str (l : list bstr) : bool :=
  match l with [] => false | a :: r => mem_str a r || dup_str r end.
Definition mem_id (i : N) (l : list N) : bool := existsb (N.eqb i) l.
Fixpoint dup_id (l : list N) : bool :=
  match l with [] => false | a :: r => mem_id a r || dup_id r end.

(** schema.cpp 7-50: the last error found stays. *)
Definition make_schema (cs : list column) (pk : list N) : res schema :=
  do names <- aliases cs;
  let ids := map (fun c => d_id (snd c)) cs in
  let e1 := if dup_str names then Some DuplicateColumn else None in
  let e2 := if dup_id ids then Some DuplicateColumn else e1 in
  let e3 := if forallb (fun k => mem_id k ids) pk then e2 else Some MissingPrimaryKey in
  Ok (Schema cs pk e3 (fold_left N.max ids 0%N)).

(** schema.cpp 105-128: position of the first column with an id or a name.  (The map from ids keeps
    the first index emplaced.) *)
Fixpoint idx_by_id (cs : list column) (i : N) : option nat :=
  match cs with
  | [] => None
  | c :: r => if (d_id (snd c) =? i)%N then Some 0 else option_map S (idx_by_id r i)
  end.
Fixpoint idx_by_name (cs : list column) (a : bstr) : res (option nat) :=
  match cs with
  | [] => Ok None
  | c :: r => do b <- alias (fst c); if beqb b a then Ok (Some 0) else (do o <- idx_by_name r a; Ok (option_map S o))
  end.

(** schema.cpp 52-70 [find_field], 72-89 [get_field_description]: a failed search sets the error of the
    schema itself ([error_] is mutable), and any error makes the call fail. *)
Inductive key := ById (i : N) | ByName (a : bstr).
Definition lookup_idx (s : schema) (k : key) : res (option nat) :=
  match k with ById i => Ok (idx_by_id (s_cols s) i) | ByName a => idx_by_name (s_cols s) a end.
Definition find_field (s : schema) (k : key) : res (schema * option column) :=
  do o <- lookup_idx s k;
  match o with
  | None => Ok (Schema (s_cols s) (s_pk s) (Some FieldMissing) (s_high s), None)
  | Some i =>
      match s_err s with
      | Some _ => Ok (s, None)
      | None => match nth_error (s_cols s) i with Some c => Ok (s, Some c) | None => Err UB end
      end
  end.

(** Calls of [find_field] (schema.cpp 52-70) one after another, each on the schema left by the one before. *)
Fixpoint lookups (s : schema) (ks : list key) : res (list (option column)) :=
  match ks with
  | [] => Ok []
  | k :: r => do '(s', o) <- find_field s k; do l <- lookups s' r; Ok (o :: l)
  end.

(** schema_diff.hpp 29-52.  Fields of the entry that no flag announces are never read. *)
Record info := Info { u_type : bool; u_name : bool; u_doc : bool; u_opt : bool; u_ty : ty; u_desc : desc }.
Record sdiff := SDiff {
  added : list column;
  updates : list (bstr * info);
  renames : list (bstr * bstr);
  deleted : list bstr;
  new_pk : option (list N)
}.
Definition no_diff : sdiff := SDiff [] [] [] [] None.
Definition no_ty : ty := Ty 0 None.
Definition no_desc : desc := Desc 0 false [].

Definition with_updates (d : sdiff) (u : list (bstr * info)) : sdiff :=
  SDiff (added d) u (renames d) (deleted d) (new_pk d).

(** schema_diff.cpp 19-26: the id of every added column is 0. *)
Definition add_column (n : bstr) (t : ty) (req : bool) (doc : bstr) (d : sdiff) : sdiff :=
  SDiff (added d ++ [(set_alias t n, Desc 0 req doc)]) (updates d) (renames d) (deleted d) (new_pk d).
(** schema_diff.cpp 28. *)
Definition delete_column (n : bstr) (d : sdiff) : sdiff :=
  SDiff (added d) (updates d) (renames d) (if mem_str n (deleted d) then deleted d else n :: deleted d) (new_pk d).
(** schema_diff.cpp 30-41. *)
Definition rename_column (n m : bstr) (d : sdiff) : sdiff :=
  match mfind bcmp n (updates d) with
  | Some i => with_updates d (minsert bcmp n (Info (u_type i) true (u_doc i) (u_opt i) (set_alias (u_ty i) m) (u_desc i)) (updates d))
  | None =>
      SDiff (added d)
            (memplace bcmp m (Info false true false false (set_alias no_ty m) no_desc) (updates d))
            (memplace bcmp n m (renames d)) (deleted d) (new_pk d)
  end.
(** schema_diff.cpp 43-53.  [old_alias] is a reference into the extension that the assignment destroys
    when the new type has one. *)
Definition update_type (n : bstr) (t : ty) (d : sdiff) : res sdiff :=
  match mfind bcmp n (updates d) with
  | Some i =>
      do a <- alias (u_ty i);
      match t_ext t with
      | Some _ => Err UB
      | None =>
          Ok (with_updates d (minsert bcmp n (Info true (u_name i) (u_doc i) (u_opt i)
                (set_alias (assign (u_ty i) t) a) (u_desc i)) (updates d)))
      end
  | None => Ok (with_updates d (memplace bcmp n (Info true false false false t no_desc) (updates d)))
  end.
(** schema_diff.cpp 55-63. *)
Definition update_doc (n doc : bstr) (d : sdiff) : sdiff :=
  match mfind bcmp n (updates d) with
  | Some i => with_updates d (minsert bcmp n (Info (u_type i) (u_name i) true (u_opt i) (u_ty i)
                (Desc (d_id (u_desc i)) (d_req (u_desc i)) doc)) (updates d))
  | None => with_updates d (memplace bcmp n (Info false false true false no_ty (Desc 0 false doc)) (updates d))
  end.
(** schema_diff.cpp 65-73 [make_optional] (false), 75-83 [make_required] (true). *)
Definition update_required (n : bstr) (req : bool) (d : sdiff) : sdiff :=
  match mfind bcmp n (updates d) with
  | Some i => with_updates d (minsert bcmp n (Info (u_type i) (u_name i) (u_doc i) true (u_ty i)
                (Desc (d_id (u_desc i)) req (d_doc (u_desc i)))) (updates d))
  | None => with_updates d (memplace bcmp n (Info false false false true no_ty (Desc 0 req [])) (updates d))
  end.
(** schema_diff.cpp 85-87. *)
Definition update_primary_key (pk : list N) (d : sdiff) : sdiff :=
  SDiff (added d) (updates d) (renames d) (deleted d) (Some pk).

(** schema_diff.cpp 89-91. *)
Definition nilb {A} (l : list A) : bool := match l with [] => true | _ => false end.
Definition has_changes (d : sdiff) : bool :=
  negb (nilb (updates d)) || negb (nilb (added d)) || negb (nilb (deleted d)) ||
  match new_pk d with Some _ => true | None => false end.

(** schema_diff.cpp 128-164: the change of the column just copied, or nothing to do. *)
Definition change (i : info) (c : column) : res column :=
  let t1 := if u_type i then assign (fst c) (u_ty i) else fst c in
  do t2 <- (if u_name i && negb (u_type i) then do a <- alias (u_ty i); Ok (set_alias t1 a) else Ok t1);
  let s := snd c in
  let s1 := if u_doc i then Desc (d_id s) (d_req s) (d_doc (u_desc i)) else s in
  let s2 := if u_opt i then Desc (d_id s1) (d_req (u_desc i)) (d_doc s1) else s1 in
  Ok (t2, s2).

(** schema_diff.cpp 100-115, one column. *)
Definition apply_one (d : sdiff) (c : column) : res (list column) :=
  do a <- alias (fst c);
  if mem_str a (deleted d) then Ok []
  else
    match mfind bcmp a (updates d) with
    | Some i => do c' <- change i c; Ok [c']
    | None =>
        match mfind bcmp a (renames d) with
        | Some m => match mfind bcmp m (updates d) with
                    | Some i => do c' <- change i c; Ok [c']
                    | None => Ok [c]
                    end
        | None => Ok [c]
        end
    end.
Fixpoint apply_all (d : sdiff) (cs : list column) : res (list column) :=
  match cs with
  | [] => Ok []
  | c :: r => do l1 <- apply_one d c; do l2 <- apply_all d r; Ok (l1 ++ l2)
  end.
(** schema_diff.cpp 93-126. *)
Definition apply_diff (d : sdiff) (s : schema) : res schema :=
  do cs <- apply_all d (s_cols s);
  make_schema (cs ++ added d) (match new_pk d with Some pk => pk | None => s_pk s end).

(** One change asked for, and a list of them. *)
Inductive sop :=
| Add (n : bstr) (t : ty) (req : bool) (doc : bstr)
| Delete (n : bstr)
| Rename (n m : bstr)
| SetType (n : bstr) (t : ty)
| SetDoc (n doc : bstr)
| SetRequired (n : bstr) (req : bool).
Definition sop_do (o : sop) (d : sdiff) : res sdiff :=
  match o with
  | Add n t req doc => Ok (add_column n t req doc d)
  | Delete n => Ok (delete_column n d)
  | Rename n m => Ok (rename_column n m d)
  | SetType n t => update_type n t d
  | SetDoc n doc => Ok (update_doc n doc d)
  | SetRequired n req => Ok (update_required n req d)
  end.
Fixpoint build (os : list sop) (d : sdiff) : res sdiff :=
  match os with
  | [] => Ok d
  | o :: r => do d1 <- sop_do o d; build r d1
  end.
