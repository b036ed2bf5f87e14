(** What the schema of a schemaless collection should be. *)
From Verif Require Import Bytes Outcome CSchemaModel DSchModel.
Local Open Scope nat_scope.

(** A document has a value of kind [k] in field [f]. *)
Definition has (d : list (list byte * ty)) (f : list byte) (k : N) : Prop := exists t, In (f, t) d /\ ty_kind t = k.

(** No statement on the collection is under way. *)
Definition idle (w : world) (c : N) : Prop :=
  (forall q m, ~ In (c, q, m) (fin w)) /\ (forall q, ~ In (c, q) (logd w)).

(** ** Statements for which the schema is kept *)
Definition is_delete (q : stmt) : bool := match q with Delete _ | DeleteByIndex _ => true | _ => false end.
(** Documents are written by inserts of new documents and removed by deletes that scan. *)
Definition plain_event (w : world) (e : event) : Prop :=
  match e with
  | Exec c (Insert ds) =>
    NoDup (map fst ds) /\ (forall d, In d ds -> ~ In (fst d) (map fst (docs w c)))
  | Exec _ (Delete _) => True
  | Exec _ _ => False
  (* no delete is finished while the log has another one to write *)
  | Finish => match fin w with (_, q, _) :: _ => is_delete q = true -> forall x, In x (logd w) -> is_delete (snd x) = false | [] => True end
  | Logged => True
  end.
Fixpoint plain (w : world) (es : list event) : Prop :=
  match es with
  | [] => True
  | e :: es' => plain_event w e /\ forall w', step w e = Ok w' -> plain w' es'
  end.

(** The documents inserted in a collection, and their number of fields. *)
Definition inserted (es : list event) (c : N) : list (N * list (list byte * ty)) :=
  flat_map (fun e => match e with Exec c' (Insert ds) => if (c' =? c)%N then ds else [] | _ => [] end) es.
Definition fields_in (ds : list (N * list (list byte * ty))) : nat := length (flat_map snd ds).

(** A field only ever has values of one kind; the same of the fields whose names begin other names. *)
Definition one_kind (ds : list (N * list (list byte * ty))) : Prop :=
  forall d e f k l, In d ds -> In e ds -> has (snd d) f k -> has (snd e) f l -> k = l.
Definition one_kind_prefixes (ds : list (N * list (list byte * ty))) : Prop :=
  forall d e f k l, In d ds -> In e ds -> has (snd d) f k -> has (snd e) f l ->
  (exists d' a r m, In d' ds /\ has (snd d') (f ++ a :: r) m) -> k = l.
