(** Which indexes there must be. *)
From Verif Require Import Bytes Outcome ByteOrd TapeModel StmtModel IxMetaModel.
Local Open Scope N_scope.

(** * What a user knows: the collections, the indexes in the order of their creation, and the names of the collections
    that had an index since the last start. *)
Record view := { vcolls : list full; vindexes : list def; vtouched : list (list byte) }.
Definition nothing : view := {| vcolls := []; vindexes := []; vtouched := [] |}.

Definition there (v : view) (c : full) : bool := existsb (fun x => full_eqb x c) (vcolls v).
Definition of_coll (c : full) (d : def) : bool := full_eqb (full_of (dcoll d)) c.
Definition named (n : list byte) (d : def) : bool := beqb (dname d) n.

Definition expect (v : view) (o : op) : view * answer :=
  match o with
  | CreateColl c => if there v c then (v, Refused) else ({| vcolls := vcolls v ++ [c]; vindexes := vindexes v; vtouched := vtouched v |}, Done)
  | DropColl c =>
    if there v c then ({| vcolls := filter (fun x => negb (full_eqb x c)) (vcolls v);
                          vindexes := filter (fun d => negb (of_coll c d)) (vindexes v); vtouched := vtouched v |}, Done)
    else (v, Refused)
  | CreateIndex d =>
    if negb (there v (full_of (dcoll d))) then (v, Refused)
    else if negb (dtype d =? 0) then (v, NoAnswer)
    else if existsb (named (dname d)) (vindexes v) then (v, Refused)
    else ({| vcolls := vcolls v; vindexes := vindexes v ++ [d]; vtouched := collection (dcoll d) :: vtouched v |}, Done)
  | DropIndex c n =>
    if existsb (fun d => of_coll c d && named n d) (vindexes v)
    then ({| vcolls := vcolls v; vindexes := filter (fun d => negb (of_coll c d && named n d)) (vindexes v); vtouched := vtouched v |}, Done)
    else (v, Refused)
  | Restart => ({| vcolls := vcolls v; vindexes := vindexes v; vtouched := map (fun d => collection (dcoll d)) (vindexes v) |}, Done)
  end.
Fixpoint expect_all (v : view) (l : list op) : view * list answer :=
  match l with
  | [] => (v, [])
  | o :: r => let '(v1, a) := expect v o in let '(v2, rest) := expect_all v1 r in (v2, a :: rest)
  end.

(** * The histories the theorem is about *)
(** Strings of the file's format, keys that are names of fields, fewer than 65536 of them. *)
Definition short (s : list byte) : bool := N.of_nat (length s) <? 2 ^ 32.
Definition nil_string (s : list byte) : bool := match s with [] => true | _ => false end.
Definition def_ok (d : def) : bool :=
  (dtype d <? 2 ^ 8) && nil_string (uid (dcoll d)) && nil_string (schema_name (dcoll d)) && short (database (dcoll d)) && short (collection (dcoll d)) &&
  short (dname d) && (N.of_nat (length (dkeys d)) <? 2 ^ 16) && forallb (fun k => match k with KStr s => short s | _ => false end) (dkeys d).
(** An index is not given the name of an index of another collection; a collection is not dropped when one of its name,
    in any database, had an index since the last start. *)
Definition fair_op (v : view) (o : op) : bool :=
  match o with
  | CreateIndex d => def_ok d && negb (existsb (fun e => named (dname d) e && negb (of_coll (full_of (dcoll d)) e)) (vindexes v))
  | DropColl c => negb (there v c && existsb (beqb (snd c)) (vtouched v))
  | _ => true
  end.
Fixpoint fair (v : view) (l : list op) : bool :=
  match l with [] => true | o :: r => fair_op v o && fair (fst (expect v o)) r end.

(** * What is seen: the names and keys of the indexes of a collection, in order. *)
Definition seen (s : store) (c : full) : option (list (list byte * list key)) :=
  match context_of s c with Some x => Some (map (fun i => (xname i, xkeys i)) (indexes x)) | None => None end.
Definition expected (v : view) (c : full) : option (list (list byte * list key)) :=
  if there v c then Some (map (fun d => (dname d, dkeys d)) (filter (of_coll c) (vindexes v))) else None.
(** Histories without a start. *)
Definition no_start (l : list op) : bool := forallb (fun o => match o with Restart => false | _ => true end) l.
