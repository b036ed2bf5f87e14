(** What the operations on documents mean: paths in the graph of nodes. *)
From Verif Require Import Bytes Outcome ByteOrd IndexModel GlobModel JsonPtrModel QueryModel DocModel.
From Verif Require TapeModel.
Local Open Scope Z_scope.

(** The child of a node in a slot, and the node at the end of a path. *)
Definition child (h : list node) (l : nat) (s : slot) : option nat :=
  match nth_error h l, s with
  | Some (Obj fs), Key k => lookup beqb k fs
  | Some (Arr ls), Index i => nth_error ls i
  | _, _ => None
  end.
Fixpoint at_path (h : list node) (l : nat) (p : list slot) : option nat :=
  match p with
  | [] => Some l
  | s :: r => match child h l s with Some l' => at_path h l' r | None => None end
  end.
Definition container (h : list node) (l : nat) : Prop :=
  match nth_error h l with Some (Obj _) | Some (Arr _) => True | _ => False end.

(** A document: all pointers are to nodes, and an object or array is reached along one path only. *)
Definition closed (h : list node) : Prop := forall l s l', child h l s = Some l' -> (l' < length h)%nat.
Definition unshared (h : list node) (root : nat) : Prop :=
  forall p q l, at_path h root p = Some l -> at_path h root q = Some l -> container h l -> p = q.
Definition document (h : list node) (root : nat) : Prop := closed h /\ (root < length h)%nat /\ unshared h root.

(** The slots a pointer text goes through in a document, also when it ends nowhere. *)
Definition slot_of (h : list node) (l : nat) (k : list byte) : option slot :=
  match nth_error h l with
  | Some (Obj _) => match unescape_key k with Ok (Some name) => Some (Key name) | _ => None end
  | Some (Arr _) => match atol k with Ok i => if i <? 0 then None else Some (Index (Z.to_nat i)) | Err _ => None end
  | _ => None
  end.
Fixpoint route_keys (h : list node) (l : nat) (ks : list (list byte)) : list slot :=
  match ks with
  | [] => []
  | k :: r =>
    match slot_of h l k with
    | None => []
    | Some s => s :: match child h l s with Some l' => route_keys h l' r | None => [] end
    end
  end.
Definition route (h : list node) (root : nat) (ptr : list byte) : list slot := route_keys h root (raw_keys ptr).
Definition below (t p : list slot) : Prop := exists r, p = t ++ r.

(** What reading a pointer shows: nothing, a value, or an object or array (which one, not its contents). *)
Inductive shown := Nothing | Value (v : dval) | Object (l : nat) | Array (l : nat) | Removed.
Definition read (h : list node) (root : nat) (ptr : list byte) : res shown :=
  do f <- find_node h root ptr;
  match f with
  | inr _ => Ok Nothing
  | inl l => match nth_error h l with
             | Some (Obj _) => Ok (Object l) | Some (Arr _) => Ok (Array l) | Some (Leaf v) => Ok (Value v)
             | Some Deleter => Ok Removed | None => Err UB
             end
  end.

(** A pointer whose last part is a name, or an index that is not after the end of its array. *)
Definition proper (h : list node) (root : nat) (ptr : list byte) : bool :=
  match container_split ptr with
  | Ok (cp, key) =>
    match find_node h root cp with
    | Ok (inl c) =>
      match nth_error h c with
      | Some (Arr ls) =>
        match atol key with
        | Ok i => (i <=? Z.of_nat (length ls)) && (i <? 2 ^ 32) && (Z.of_nat (length ls) <? 2 ^ 32)
        | Err _ => false
        end
      | _ => true
      end
    | _ => true
    end
  | Err _ => true
  end.

(** The nodes of two documents are different, but for values. *)
Definition apart (h : list node) (a b : nat) : Prop :=
  forall p q l, at_path h a p = Some l -> at_path h b q = Some l -> ~ container h l.

(** A node whose children are all values. *)
Definition flat (h : list node) (x : node) : Prop :=
  match x with
  | Obj fs => forall k l, lookup beqb k fs = Some l -> (l < length h)%nat /\ ~ container h l
  | Arr ls => forall i l, nth_error ls i = Some l -> (l < length h)%nat /\ ~ container h l
  | _ => True
  end.

(** Later changes, all of them at or below a path: values, empty objects or arrays are put there. *)
Inductive changes (root : nat) (t : list slot) : list node -> list node -> Prop :=
| no_change h : changes root t h h
| one_more h h1 h2 ptr x : changes root t h h1 ->
    (match x with Obj [] | Arr [] | Leaf _ | Deleter => True | _ => False end) ->
    proper h1 root ptr = true -> below t (route h1 root ptr) -> set_new h1 root ptr x = Ok (h2, Success) -> changes root t h h2.

(** The value an update stores: integers of 64 bits, but for those of 128. *)
Definition stored (v : dval) : dval :=
  match v with
  | DInt k z => DInt (match k with TapeModel.I128 => TapeModel.I128 | _ => if TapeModel.signed k then TapeModel.I64 else TapeModel.U64 end) z
  | _ => v
  end.
(** A field that can be compared with the new value: of the same kind and, if an integer, of a value the type of the new
    one can hold; or no field, when the new value is not 0, false or the empty text. *)
Definition updatable (old : shown) (v : dval) : bool :=
  match old, stored v with
  | Value (DBool _), DBool _ => true
  | Value (DInt k z), DInt t _ => TapeModel.fits t z
  | Value (DStr _), DStr _ => true
  | Nothing, DBool b => b
  | Nothing, DInt _ z => negb (z =? 0)
  | Nothing, DStr s => negb (beqb s [])
  | _, _ => false
  end.
Definition same_shown (a : shown) (v : dval) : bool :=
  match a, v with
  | Value (DBool a), DBool b => Bool.eqb a b
  | Value (DInt _ a), DInt _ b => a =? b
  | Value (DStr a), DStr b => beqb a b
  | _, _ => false
  end.
