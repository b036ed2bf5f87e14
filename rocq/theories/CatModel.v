(** Namespaces and tables of the catalogue (components/catalog/namespace_storage.cpp,
    components/catalog/catalog.cpp), over the versioned trie of TrieModel.v. *)
From Verif Require Import Bytes Outcome ByteOrd OMap TrieModel CSchemaModel.

(** catalog.hpp 46-50. *)
Inductive kind := Regular | Computing.
(** catalog_error.hpp: the mistakes these functions report. *)
Inductive mistake := NoMistake | MissingNamespace | AlreadyExists.
(** table_metadata.hpp 43-48. *)
Inductive format := Documents | Columns | Undefined.

Notation bstr := (list byte) (only parsing).
Notation path := (list (list byte)) (only parsing).

Section Catalog.
  (** Table metadata and computed schemas, whatever they hold. *)
  Context {M : Type}.

  (** namespace_storage.hpp 38-44: two std::map from a table name. *)
  Record info := Info { tables : list (bstr * M); computing : list (bstr * M) }.
  Definition no_tables : info := Info [] [].
  (** catalog.cpp 158-168 [get_map_impl]. *)
  Definition get_map (k : kind) (i : info) : list (bstr * M) :=
    match k with Regular => tables i | Computing => computing i end.
  Definition set_map (k : kind) (m : list (bstr * M)) (i : info) : info :=
    match k with Regular => Info m (computing i) | Computing => Info (tables i) m end.

  Notation cat := (trie (list byte) info).

  (** No reference to a namespace outlives a call, so no version is alive
      (trie_containers.hpp 27: [ref_count_] starts at 0). *)
  Definition nolive (_ : info) : bool := false.

  (** namespace_storage.cpp 33-41. *)
  Definition ns_exists (c : cat) (p : path) : bool :=
    match p with
    | [] => false
    | _ => match find bltb c p with Some _ => true | None => false end
    end.

  (** namespace_storage.cpp 20-21. *)
  Definition ns_insert (c : cat) (p : path) : cat * out :=
    let '(c', ok) := insert bltb c p no_tables in (c', if ok then Done else Thrown).

  (** namespace_storage.cpp 8-22 [create_namespace], on the reversed path (the recursion removes the
      last element). *)
  Fixpoint create_rev (c : cat) (rp : path) : cat * out :=
    if ns_exists c (rev rp) then (c, Done)
    else
      match rp with
      | e :: ((_ :: _) as rq) =>
          if ns_exists c (rev rq) then ns_insert c (rev rp)
          else
            match create_rev c rq with
            | (c1, Done) => ns_insert c1 (rev rp)
            | r => r
            end
      | _ => ns_insert c (rev rp)
      end.
  Definition create_namespace (c : cat) (p : path) : cat * out := create_rev c (rev p).

  (** namespace_storage.cpp 24-31. *)
  Definition drop_namespace (c : cat) (p : path) : cat * out :=
    if ns_exists c p
    then let '(c', freed) := erase bltb nolive c p in (c', if freed then Freed else Done)
    else (c, Done).

  (** namespace_storage.cpp 58-79. *)
  Definition list_child_namespaces (c : cat) (p : path) : list path :=
    if ns_exists c p then map (fun e => p ++ [e]) (next_elements bltb c p) else [].

  (** namespace_storage.cpp 92-95 with versioned_trie.hpp 94-98, 217-257: [leaf] is that of the
      deepest node on the way to the key, whether the key is there or not. *)
  Fixpoint deepest (n : node (list byte) info) (p : path) : node (list byte) info :=
    match p with
    | [] => n
    | e :: p' => match child_at bltb (n_cs n) e with Some c => deepest c p' | None => n end
    end.
  Definition has_child_namespaces (c : cat) (p : path) : bool :=
    match t_root c with
    | None => false
    | Some r => negb (is_nil (n_cs (deepest r p)))
    end.

  (** namespace_storage.cpp 122-129: the value of the latest version, or std::logic_error. *)
  Definition get_info (c : cat) (p : path) : res info :=
    if ns_exists c p
    then match find bltb c p with
         | Some vs => match rev vs with (_, i) :: _ => Ok i | [] => Err UB end
         | None => Err UB
         end
    else Err Throw.

  (** The reference returned by [get_namespace_info] is changed in place. *)
  Definition change_last (g : info -> info) (vs : list (N * info)) : list (N * info) :=
    match rev vs with
    | [] => []
    | (n, i) :: r => rev ((n, g i) :: r)
    end.
  Definition upd_info (c : cat) (p : path) (g : info -> info) : cat := update bltb c p (change_last g).

  (** catalog.cpp 148-156. *)
  Definition table_exists (k : kind) (c : cat) (p : path) (n : bstr) : bool :=
    match get_info c p with Ok i => mmem bcmp n (get_map k i) | Err _ => false end.

  (** catalog.cpp 76-87 [create_table], 89-101 [create_computing_table]. *)
  Definition create_table (k : kind) (c : cat) (p : path) (n : bstr) (m : M) : cat * mistake :=
    if negb (ns_exists c p) then (c, MissingNamespace)
    else if table_exists k c p n then (c, AlreadyExists)
    else (upd_info c p (fun i => set_map k (memplace bcmp n m (get_map k i)) i), NoMistake).

  (** catalog.cpp 121-129. *)
  Definition drop_table (k : kind) (c : cat) (p : path) (n : bstr) : cat :=
    if table_exists k c p n
    then upd_info c p (fun i => set_map k (merase bcmp n (get_map k i)) i)
    else c.

  (** catalog.cpp 131-146: extract the node, change its key, insert it. *)
  Definition rename_table (k : kind) (c : cat) (p : path) (n n' : bstr) : cat * mistake :=
    if negb (table_exists k c p n) then (c, AlreadyExists)
    else if table_exists k c p n' then (c, AlreadyExists)
    else
      (upd_info c p (fun i =>
         match mfind bcmp n (get_map k i) with
         | Some m => set_map k (memplace bcmp n' m (merase bcmp n (get_map k i))) i
         | None => i
         end), NoMistake).

  (** catalog.cpp 27-41: the names of regular tables. *)
  Definition list_tables (c : cat) (p : path) : list bstr :=
    match get_info c p with Ok i => map fst (tables i) | Err _ => [] end.

  (** catalog.cpp 43-48: a missing table is only asserted against. *)
  Definition get_table_schema (c : cat) (p : path) (n : bstr) : res M :=
    do i <- get_info c p;
    match mfind bcmp n (tables i) with Some m => Ok m | None => Err UB end.

  (** catalog.cpp 50-67. *)
  Definition get_table_format (c : cat) (p : path) (n : bstr) : res format :=
    do i <- get_info c p;
    Ok (if mmem bcmp n (tables i) then Columns
        else if mmem bcmp n (computing i) then Documents else Undefined).

  (** A history of calls. *)
  Inductive cop :=
  | NsCreate (p : path)
  | NsDrop (p : path)
  | TCreate (k : kind) (p : path) (n : bstr) (m : M)
  | TDrop (k : kind) (p : path) (n : bstr)
  | TRename (k : kind) (p : path) (n n' : bstr).

  Definition cstep (c : cat) (o : cop) : cat * (out * mistake) :=
    match o with
    | NsCreate p => let '(c', x) := create_namespace c p in (c', (x, NoMistake))
    | NsDrop p => let '(c', x) := drop_namespace c p in (c', (x, NoMistake))
    | TCreate k p n m => let '(c', e) := create_table k c p n m in (c', (Done, e))
    | TDrop k p n => (drop_table k c p n, (Done, NoMistake))
    | TRename k p n n' => let '(c', e) := rename_table k c p n n' in (c', (Done, e))
    end.
  Fixpoint crun (c : cat) (h : list cop) : cat * list (out * mistake) :=
    match h with
    | [] => (c, [])
    | o :: h' => let '(c1, x) := cstep c o in let '(c2, xs) := crun c1 h' in (c2, x :: xs)
    end.
End Catalog.
Arguments info : clear implicits.
Arguments cop : clear implicits.
