(** What a SELECT statement over documents returns. *)
From Verif Require Import Bytes Outcome ByteOrd.
From Verif Require TapeModel.
From Verif Require Import IndexModel IndexSpec QueryModel QuerySpec GroupSpec SqlModel SqlSpec SelModel.
Local Open Scope Z_scope.

(** The documents of a collection that satisfy the condition are those [f] accepts; the condition, if there is one, is
    of the kind C82 is about. *)
Definition accepts (w : option node) (f : doc -> bool) (ds : list doc) : Prop :=
  match w with
  | None => forall d, In d ds -> f d = true
  | Some n => SqlSpec.plain n = true /\ (constants n <= 65536)%N /\
              forall d, In d ds -> matched n d = true /\ (f d = true <-> holds n d)
  end.
(** No DISTINCT, HAVING, LIMIT and OFFSET. *)
Definition bare (q : query) : Prop :=
  q_distinct q = false /\ q_having q = None /\ q_limit q = None /\ q_offset q = None.

Definition columns (cs : list (list byte)) : list target := map (fun c => TCol [] c None) cs.
(** Both have a value in this field, and it is the same. *)
Definition same_field (k : list byte) (a b : doc) : Prop :=
  exists x y, field a k = Some x /\ field b k = Some y /\ same_value x y = true.
(** A row with these columns in this order, with the values of the document. *)
Definition row_of (cs : list (list byte)) (d row : doc) : Prop :=
  map fst (fields row) = cs /\ forall c, In c cs -> same_field c d row.
(** No two documents agree in all these columns. *)
Definition all_different (cs : list (list byte)) (ds : list doc) : Prop :=
  ForallOrdPairs (fun a b => same_keys cs a b = false) ds.
(** The rows SQL has for [SELECT * FROM t, u]: every pair. *)
Definition pairs (ds es : list doc) : list (doc * doc) := list_prod ds es.

(** [c1 AS a1, ..., cn AS an], and a row with these names and the values of the columns. *)
Definition aliased (cas : list (list byte * list byte)) : list target := map (fun ca => TCol [] (fst ca) (Some (snd ca))) cas.
Definition aliased_row (cas : list (list byte * list byte)) (d row : doc) : Prop :=
  map fst (fields row) = map snd cas /\
  forall c a, In (c, a) cas -> exists x y, field d c = Some x /\ field row a = Some y /\ same_value x y = true.
