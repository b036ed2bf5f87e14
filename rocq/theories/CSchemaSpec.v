(** What the schema of a schemaless collection should say. *)
From Verif Require Import Bytes CSchemaModel.

(** The number of values of kind [k] in field [f] after a history: every append counts one, every
    drop takes away its number, and no more than there are. *)
Definition tally (f : list byte) (k : N) (c : N) (o : op) : N :=
  match o with
  | Append g t => if list_eq_dec ascii_dec g f then if (ty_kind t =? k)%N then (c + 1)%N else c else c
  | Drop g t n => if list_eq_dec ascii_dec g f then if (ty_kind t =? k)%N then (c - n)%N else c else c
  end.
Definition count (h : list op) (f : list byte) (k : N) : N := fold_left (tally f k) h 0%N.

(** Values appended and values dropped. *)
Definition appended (h : list op) (f : list byte) (k : N) : N :=
  fold_left (fun c o => match o with
    | Append g t => if list_eq_dec ascii_dec g f then if (ty_kind t =? k)%N then (c + 1)%N else c else c
    | Drop _ _ _ => c end) h 0%N.
Definition dropped (h : list op) (f : list byte) (k : N) : N :=
  fold_left (fun c o => match o with
    | Drop g t n => if list_eq_dec ascii_dec g f then if (ty_kind t =? k)%N then (c + n)%N else c else c
    | Append _ _ => c end) h 0%N.
(** Never more values dropped than were there. *)
Definition balanced (h : list op) : Prop :=
  forall n f k, (dropped (firstn n h) f k <= appended (firstn n h) f k)%N.

Definition op_field (o : op) : list byte := match o with Append f _ => f | Drop f _ _ => f end.
Definition op_kind (o : op) : N := match o with Append _ t => ty_kind t | Drop _ t _ => ty_kind t end.
Definition longer (f g : list byte) : Prop := exists a l, g = f ++ a :: l.

(** A field whose name begins the name of another field only ever has values of one kind. *)
Definition plain_prefixes (h : list op) : Prop :=
  forall o p, In o h -> In p h -> longer (op_field o) (op_field p) ->
  forall o', In o' h -> op_field o' = op_field o -> op_kind o' = op_kind o.

(** The fields that have values. *)
Definition is_field (h : list op) (f : list byte) : Prop := exists k, (0 < count h f k)%N.

(** Among the fields that continue the name [q], the smallest next character is itself the end of a
    field name. *)
Definition first_is_field (fld : list byte -> Prop) (q : list byte) : Prop :=
  exists c, fld (q ++ [c]) /\ forall d l, fld (q ++ d :: l) -> char_ltb d c = false.
