(** What a join of documents is. *)
From Verif Require Import Bytes Outcome ByteOrd IndexModel QueryModel JoinModel.

(** A row of the result: the documents it is made of; [None] for the missing side of an unmatched document. *)
Notation jrow := (option (list (list byte * jval)) * option (list (list byte * jval)))%type (only parsing).

(** The rows of a join with a condition: the pairs that satisfy it, and for outer joins the documents without a
    partner. *)
Definition pairs (f : jdoc -> jdoc -> bool) (left right : list jdoc) : list jrow :=
  map (fun lr => (Some (fst lr), Some (snd lr))) (filter (fun lr => f (fst lr) (snd lr)) (list_prod left right)).
Definition lonely_left (f : jdoc -> jdoc -> bool) (left right : list jdoc) : list jrow :=
  map (fun l => (Some l, None)) (filter (fun l => negb (existsb (f l) right)) left).
Definition lonely_right (f : jdoc -> jdoc -> bool) (left right : list jdoc) : list jrow :=
  map (fun r => (None, Some r)) (filter (fun r => negb (existsb (fun l => f l r) left)) right).
Definition rows (t : jtype) (f : jdoc -> jdoc -> bool) (left right : list jdoc) : list jrow :=
  match t with
  | JInner => pairs f left right
  | JCross => pairs (fun _ _ => true) left right
  | JLeft => pairs f left right ++ lonely_left f left right
  | JRight => pairs f left right ++ lonely_right f left right
  | JFull => pairs f left right ++ lonely_left f left right ++ lonely_right f left right
  end.

(** A field that is there and not NULL. *)
Definition content (d : jdoc) (k : list byte) : option jval :=
  match value d k with Some (Leaf DNull) => None | x => x end.

(** A document made of a row: a pair has the fields of both, the right wins on a name they share; the content of an
    unmatched document stays. *)
Definition made_of (d : jdoc) (row : jrow) : Prop :=
  match row with
  | (Some l, Some r) => forall k, value d k = match value r k with Some v => Some v | None => value l k end
  | (Some l, None) => forall k, content d k = content l k
  | (None, Some r) => forall k, content d k = content r k
  | (None, None) => False
  end.

(** No name of [l] is an object in [r]. *)
Definition mergeable (l r : jdoc) : bool :=
  forallb (fun kv => match value l (fst kv), snd kv with Some _, Obj _ => false | _, _ => true end) r.
Definition no_shared (l r : jdoc) : bool :=
  forallb (fun kv => match value l (fst kv) with Some _ => false | None => true end) r.
(** When the joins do what they should. *)
Definition joinable (t : jtype) (left right : list jdoc) : bool :=
  forallb (fun l => forallb (mergeable l) right) left &&
  match t with
  | JInner | JCross | JRight => true
  | JLeft => match right with [] => true | r :: _ => forallb (fun l => no_shared l r) left end
  | JFull =>
    match left, right with
    | [], _ => true
    | _ :: _, [] => false
    | _ :: _, r :: _ => forallb (fun l => no_shared l r) left && forallb (mergeable r) right
    end
  end.
