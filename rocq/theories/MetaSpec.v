(** Specification of the catalogue: a set of databases, each with a set of collections. *)
From Verif Require Import Bytes ByteOrd MetaModel.

(** abstract catalogue: which databases exist, which collections exist *)
Record cat := { has_db : name -> bool; has_coll : name -> name -> bool }.
Definition cat_empty : cat := {| has_db := fun _ => false; has_coll := fun _ _ => false |}.

(** effect of a call and whether it changed anything *)
Definition cat_step (s : cat) (o : meta_op) : cat * bool :=
  match o with
  | CreateDb d =>
    (if has_db s d then s
     else {| has_db := fun x => beqb x d || has_db s x; has_coll := has_coll s |}, negb (has_db s d))
  | DropDb d =>
    ({| has_db := fun x => negb (beqb x d) && has_db s x;
        has_coll := fun x c => negb (beqb x d) && has_coll s x c |}, has_db s d)
  | CreateColl d c =>
    if has_db s d && negb (has_coll s d c)
    then ({| has_db := has_db s; has_coll := fun x y => (beqb x d && beqb y c) || has_coll s x y |}, true)
    else (s, false)
  | DropColl d c =>
    ({| has_db := has_db s; has_coll := fun x y => negb (beqb x d && beqb y c) && has_coll s x y |},
     has_coll s d c)
  end.
Definition cat_run (ops : list meta_op) : cat := fold_left (fun s o => fst (cat_step s o)) ops cat_empty.

(** the catalogue lists exactly what the specification says, without repetition *)
Definition lists (m : meta) (s : cat) : Prop :=
  NoDup (databases m) /\ (forall d, In d (databases m) <-> has_db s d = true) /\
  (forall d, NoDup (collections m d)) /\
  (forall d c, In c (collections m d) <-> has_coll s d c = true).

(** names that the file format can carry *)
Definition mem_byte (b : byte) (s : name) : bool :=
  existsb (fun x => match bytecmp b x with Eq => true | _ => false end) s.
Definition names_ok (m : meta) : bool :=
  forallb (fun e => negb (mem_byte COLON (fst e)) &&
                    forallb (fun c => negb (mem_byte SEMI c) && negb (mem_byte NL c)) (snd e)) m.
