(** What INSERT and DELETE statements do. *)
From Verif Require Import Bytes Outcome ByteOrd.
From Verif Require TapeModel OidModel.
From Verif Require Import IndexModel IndexSpec QueryModel QuerySpec GroupSpec SqlModel SqlSpec SelModel SelSpec.
Local Open Scope Z_scope.

(** The value of a constant. *)
Definition constant_of (n : node) : option dval :=
  match n with
  | Lit (LStr s) => Some (DStr s)
  | Lit (LInt z) => Some (DInt TapeModel.I64 z)
  | Cast (LStr s) t =>
    if beqb t (str "bool") then
      if beqb s (str "t") then Some (DBool true) else if beqb s (str "f") then Some (DBool false) else None
    else None
  | _ => None
  end.
(** A document with these columns and, in each, the constant of the row. *)
Definition row_document (cols : list (list byte)) (row : list node) (d : doc) : Prop :=
  map fst (fields d) = cols /\ Forall2 (fun c n => field d c <> None /\ field d c = constant_of n) cols row.

(** The text of an id is 24 hexadecimal digits; two are the same id when they differ in the case of letters only. *)
Definition same_id (s s' : list byte) : Prop := map OidModel.lower s = map OidModel.lower s'.
(** What a row has in the column [_id]. *)
Definition row_id (cols : list (list byte)) (row : list node) : option (list byte) :=
  match lookup beqb (str "_id") (combine cols row) with Some (Lit (LStr s)) => Some s | _ => None end.
(** The document has the text of an id in [_id]. *)
Definition has_text (s : list byte) (d : doc) : Prop := field d (str "_id") = Some (DStr s) /\ OidModel.is_valid s = true.
(** A document is filed under the id in its [_id]: under the number its digits are. *)
Definition digit (c : byte) : N :=
  (if N_of_byte c <=? 57 then N_of_byte c - 48 else if N_of_byte c <=? 70 then N_of_byte c - 55 else N_of_byte c - 87)%N.
Definition hexadecimal (s : list byte) : N := fold_left (fun a c => a * 16 + digit c)%N s 0%N.
Definition filed (d : doc) : Prop := exists s, has_text s d /\ did d = hexadecimal s.

(** [d'] is made of [d]: a column [c] for every pair [(c, s)], with the value of [s], and no other. *)
Definition renamed (pairs : list (list byte * list byte)) (d d' : doc) : Prop :=
  did d' = did d /\
  forall c, match lookup beqb c pairs with
            | Some s => exists x y, field d s = Some x /\ field d' c = Some y /\ same_value x y = true
            | None => field d' c = None
            end.

(** ** DELETE FROM t USING u *)
(** The value of a side of a comparison on a document of [t] and one of [u]: a column is that of the collection it is
    written with. *)
Definition of_collection (t : list byte) (prefix : list (list byte)) : bool :=
  match prefix with [p] => beqb p t | _ => false end.
Definition pair_value (t u : list byte) (n : node) (l r : doc) : option dval :=
  match n with
  | Col p k => if of_collection t p then field l k else if of_collection u p then field r k else None
  | _ => constant_of n
  end.
Fixpoint pair_holds (t u : list byte) (n : node) (l r : doc) : Prop :=
  match n with
  | Op o a b =>
    exists c x y, operator_of o = Some c /\ pair_value t u a l r = Some x /\ pair_value t u b l r = Some y /\ stands c x y
  | Conj a b => pair_holds t u a l r /\ pair_holds t u b l r
  | Disj a b => pair_holds t u a l r \/ pair_holds t u b l r
  | Neg a => ~ pair_holds t u a l r
  | Paren a => pair_holds t u a l r
  | _ => False
  end.
(** The conditions that are read as they are written: a column of [t] on the left, one of [u] or a constant on the right,
    or a constant on the left and a column of [t] on the right when the comparison reads the same both ways. *)
Definition column_of (t : list byte) (n : node) : bool := match n with Col p _ => of_collection t p | _ => false end.
Fixpoint pair_plain (t u : list byte) (n : node) : bool :=
  match n with
  | Op o l r =>
    match operator_of o with
    | Some c => column_of t l && (column_of u r || SqlSpec.constant r)
                || SqlSpec.constant l && column_of t r && match c with CEq | CNe => true | _ => false end
    | None => false
    end
  | Conj l r | Disj l r => pair_plain t u l && pair_plain t u r
  | Neg r => pair_plain t u r && negb (negation r)
  | Paren a => pair_plain t u a
  | _ => false
  end.
Fixpoint pair_matched (t u : list byte) (n : node) (l r : doc) : bool :=
  match n with
  | Op _ a b =>
    match pair_value t u a l r, pair_value t u b l r with
    | Some x, Some y => if column a then comparable x y else comparable y x
    | _, _ => false
    end
  | Conj a b | Disj a b => pair_matched t u a l r && pair_matched t u b l r
  | Neg a => pair_matched t u a l r
  | Paren a => pair_matched t u a l r
  | _ => false
  end.
