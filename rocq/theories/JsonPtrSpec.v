(** RFC 6901 escaping: '~' is written "~0" and '/' is written "~1". *)
From Verif Require Import Bytes JsonPtrModel.

Inductive unesc : list byte -> list byte -> Prop :=
| U_nil : unesc [] []
| U_plain c s k : c <> tilde -> unesc s k -> unesc (c :: s) (c :: k)
| U_tilde s k : unesc s k -> unesc (tilde :: zero_c :: s) (tilde :: k)
| U_slash s k : unesc s k -> unesc (tilde :: one_c :: s) (slash :: k).

Definition esc1 (c : byte) : list byte :=
  if N.eqb (N_of_byte c) 126 then [tilde; zero_c]
  else if N.eqb (N_of_byte c) 47 then [tilde; one_c] else [c].
Definition esc (k : list byte) : list byte := flat_map esc1 k.

(** The pointer for a path of field names. *)
Definition to_pointer (ks : list (list byte)) : list byte := flat_map (fun k => slash :: esc k) ks.
