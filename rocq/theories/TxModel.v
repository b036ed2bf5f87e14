(** Transactions on the metadata of a table (components/catalog/transaction/metadata_diff.cpp,
    metadata_transaction.hpp and .cpp, transaction_scope.cpp, catalog.cpp [begin_transaction]), over the
    catalogue of CatModel.v and the schema changes of SDiffModel.v.  Not modelled: the time of the last
    update, the list of tables with open transactions (it is only written), and scopes that are moved
    or outlive the catalogue. *)
From Verif Require Import Bytes Outcome ByteOrd OMap SDiffModel TrieModel CSchemaModel CatModel.

(** table_metadata.hpp: the schema and the description.  Computed schemas, which transactions do not
    touch, are given the same type. *)
Record meta := Meta { m_schema : schema; m_desc : bstr }.
Notation cat := (trie (list byte) (CatModel.info meta)) (only parsing).

(** metadata_diff.hpp 19-24. *)
Record mdiff := MDiff { md_schema : sdiff; md_desc : option bstr }.
Definition no_mdiff : mdiff := MDiff no_diff None.
(** metadata_diff.cpp 12. *)
Definition md_changes (d : mdiff) : bool :=
  match md_desc d with Some _ => true | None => has_changes (md_schema d) end.
(** metadata_diff.cpp 14-23. *)
Definition md_apply (d : mdiff) (m : meta) : res meta :=
  if negb (md_changes d) then Ok m
  else
    do s <- (if has_changes (md_schema d) then apply_diff (md_schema d) (m_schema m) else Ok (m_schema m));
    Ok (Meta s (match md_desc d with Some x => x | None => m_desc m end)).

(** metadata_transaction.hpp 14-19; catalog_error.hpp 19-27. *)
Inductive tstate := Active | Committed | Aborted.
Inductive tmistake := Inactive | Finalized | MissingTable | MissingSavepoint | CommitFailed.

(** metadata_transaction.hpp 64-68. *)
Record tx := Tx {
  x_state : tstate;
  x_md : mdiff;
  x_sd : sdiff;
  x_err : option tmistake;
  x_saves : list (bstr * (mdiff * sdiff))
}.
(** metadata_transaction.cpp 4-15. *)
Definition new_tx (e : option tmistake) : tx := Tx Active no_mdiff no_diff e [].

Definition with_err (t : tx) (e : tmistake) : tx := Tx (x_state t) (x_md t) (x_sd t) (Some e) (x_saves t).

(** metadata_transaction.cpp 17-28. *)
Definition ensure_active (t : tx) : tx * bool :=
  match x_err t with
  | Some _ => (t, false)
  | None => match x_state t with Active => (t, true) | _ => (with_err t Inactive, false) end
  end.

(** The calls on a transaction. *)
Inductive top := Change (o : sop) | Describe (d : bstr) | Save (n : bstr) | Back (n : bstr).
(** metadata_transaction.cpp 30-111. *)
Definition tx_do (t : tx) (o : top) : res tx :=
  let '(t, ok) := ensure_active t in
  if negb ok then Ok t
  else
    match o with
    | Change o => do d <- sop_do o (x_sd t); Ok (Tx (x_state t) (x_md t) d (x_err t) (x_saves t))
    | Describe s => Ok (Tx (x_state t) (MDiff (md_schema (x_md t)) (Some s)) (x_sd t) (x_err t) (x_saves t))
    | Save n => Ok (Tx (x_state t) (x_md t) (x_sd t) (x_err t) (memplace bcmp n (x_md t, x_sd t) (x_saves t)))
    | Back n =>
        match mfind bcmp n (x_saves t) with
        | None => Ok (with_err t MissingSavepoint)
        | Some (md, sd) => Ok (Tx (x_state t) md sd (x_err t) (x_saves t))
        end
    end.

(** transaction_scope.hpp: [c_open] says that the scope was made by the constructor of lines 4-14 of
    transaction_scope.cpp, so that it has a list of transactions and a catalogue, not by that of lines
    16-22. *)
Record scope := Scope {
  c_committed : bool;
  c_aborted : bool;
  c_open : bool;
  c_path : path;
  c_name : bstr;
  c_err : option tmistake;
  c_tx : tx
}.

(** catalog.cpp 170-179. *)
Definition begin (c : cat) (p : path) (n : bstr) : scope :=
  if table_exists Regular c p n
  then Scope false false true p n None (new_tx None)
  else Scope false false false [] [] (Some MissingTable) (new_tx (Some MissingTable)).

(** transaction_scope.cpp 98-117, metadata_transaction.cpp 117-121. *)
Definition abort (s : scope) : scope :=
  if c_committed s then Scope true (c_aborted s) (c_open s) (c_path s) (c_name s) (Some Finalized) (c_tx s)
  else if c_aborted s then s
  else
    let t := c_tx s in
    let t' := Tx (match x_state t with Active => Aborted | x => x end) (x_md t) (x_sd t) (x_err t) (x_saves t) in
    Scope false true (c_open s) (c_path s) (c_name s) (c_err s) t'.

(** transaction_scope.cpp 75-85, the function given to metadata_transaction::commit. *)
Inductive applied := Changed (c : cat) | NoTable | Throws.
Definition apply_to (c : cat) (p : path) (n : bstr) (d : mdiff) : res applied :=
  match get_info c p with
  | Err Throw => Ok Throws
  | Err e => Err e
  | Ok i =>
      match mfind bcmp n (tables i) with
      | None => Ok NoTable
      | Some m =>
          do m' <- md_apply d m;
          Ok (Changed (upd_info c p (fun i => set_map Regular (minsert bcmp n m' (tables i)) i)))
      end
  end.

(** metadata_transaction.hpp 46-60.  A moved-from set of schema changes is empty (pmr containers with
    one resource). The last component tells that an exception left the function. *)
Definition tx_commit (c : cat) (p : path) (n : bstr) (t : tx) : res (cat * tx * bool) :=
  let '(t, ok) := ensure_active t in
  if negb ok then Ok (c, t, false)
  else
    let md := MDiff (x_sd t) (md_desc (x_md t)) in
    let t1 := Tx (x_state t) md no_diff (x_err t) (x_saves t) in
    if md_changes md
    then
      do a <- apply_to c p n md;
      match a with
      | Changed c' => Ok (c', Tx Committed md no_diff None (x_saves t), false)
      | NoTable => Ok (c, Tx Aborted md no_diff (Some CommitFailed) (x_saves t), false)
      | Throws => Ok (c, t1, true)
      end
    else Ok (c, Tx Committed md no_diff None (x_saves t), false).

(** transaction_scope.cpp 64-96. *)
Definition commit (c : cat) (s : scope) : res (cat * scope * bool) :=
  let e1 := if c_committed s || c_aborted s then Some Finalized else c_err s in
  let e2 := if c_open s then e1 else Some CommitFailed in
  let s1 := Scope (c_committed s) (c_aborted s) (c_open s) (c_path s) (c_name s) e2 (c_tx s) in
  match e2 with
  | Some _ => Ok (c, abort s1, false)
  | None =>
      do '(c', t, threw) <- tx_commit c (c_path s) (c_name s) (c_tx s);
      if threw
      then Ok (c', Scope (c_committed s) (c_aborted s) (c_open s) (c_path s) (c_name s) e2 t, true)
      else
        let s2 := Scope (c_committed s) (c_aborted s) (c_open s) (c_path s) (c_name s) (x_err t) t in
        match x_err t with
        | None => Ok (c', Scope true (c_aborted s) (c_open s) (c_path s) (c_name s) None t, false)
        | Some _ => Ok (c', abort s2, false)
        end
  end.

(** Calls on the catalogue and on transactions, which are numbered in the order they begin. *)
Inductive event :=
| Cat (o : cop meta)
| Begin (p : path) (n : bstr)
| Do (i : nat) (o : top)
| Commit (i : nat)
| Abort (i : nat).
(** What a caller sees: what the call on the catalogue reports; the error of the scope after [Begin],
    [Commit] and [Abort]; the error of the transaction after [Do]; or an exception. *)
Inductive report := RCat (x : out) (m : mistake) | RErr (e : option tmistake) | RThrow | RNone.

Record state := State { s_cat : cat; s_open : list scope }.
Definition start : state := State empty_trie [].

Fixpoint set_nth {A} (i : nat) (x : A) (l : list A) : list A :=
  match l, i with
  | [], _ => []
  | _ :: r, O => x :: r
  | y :: r, S i => y :: set_nth i x r
  end.
Definition with_tx (s : scope) (t : tx) : scope :=
  Scope (c_committed s) (c_aborted s) (c_open s) (c_path s) (c_name s) (c_err s) t.

Definition step (s : state) (e : event) : res (state * report) :=
  match e with
  | Cat o => let '(c', (x, m)) := cstep (s_cat s) o in Ok (State c' (s_open s), RCat x m)
  | Begin p n => let b := begin (s_cat s) p n in Ok (State (s_cat s) (s_open s ++ [b]), RErr (c_err b))
  | Do i o =>
      match nth_error (s_open s) i with
      | None => Ok (s, RNone)
      | Some b => do t <- tx_do (c_tx b) o; Ok (State (s_cat s) (set_nth i (with_tx b t) (s_open s)), RErr (x_err t))
      end
  | Commit i =>
      match nth_error (s_open s) i with
      | None => Ok (s, RNone)
      | Some b =>
          do '(c', b', threw) <- commit (s_cat s) b;
          Ok (State c' (set_nth i b' (s_open s)), if threw then RThrow else RErr (c_err b'))
      end
  | Abort i =>
      match nth_error (s_open s) i with
      | None => Ok (s, RNone)
      | Some b => let b' := abort b in Ok (State (s_cat s) (set_nth i b' (s_open s)), RErr (c_err b'))
      end
  end.
Fixpoint run (s : state) (es : list event) : res (state * list report) :=
  match es with
  | [] => Ok (s, [])
  | e :: r => do '(s1, x) <- step s e; do '(s2, xs) <- run s1 r; Ok (s2, x :: xs)
  end.
