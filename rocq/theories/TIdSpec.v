(** Names that can be written as text. *)
From Verif Require Import Bytes Outcome TIdModel.

Definition without (c : byte) (s : list byte) : Prop := ~ In c s.
Definition plain_name (f : full_name) : Prop :=
  without zero (uid f) /\ without zero (database f) /\ without zero (schema f) /\ without zero (collection f).
(** a part of a namespace at least, no dots, a name *)
Definition readable (t : table_id) : Prop :=
  namespace t <> [] /\ Forall (without dot) (namespace t) /\ without dot (table_name t) /\ table_name t <> [].
