(** Words of SQL statements. *)
From Verif Require Import Bytes Outcome ByteOrd IdnModel.

(** Letters without accents in small. *)
Fixpoint small_of (l : list (byte * byte)) (c : byte) : byte :=
  match l with [] => c | (a, b) :: r => if Ascii.eqb a c then b else small_of r c end.
Definition small (s : list byte) : list byte :=
  map (small_of (combine (str "ABCDEFGHIJKLMNOPQRSTUVWXYZ") (str "abcdefghijklmnopqrstuvwxyz"))) s.
(** The name of an identifier: all of it up to 63 bytes; of longer ones a beginning of 60 to 63 bytes. *)
Definition names (s name : list byte) : Prop :=
  if (length s <? 64)%nat then name = s else exists rest, s = name ++ rest /\ (60 <= length name <= 63)%nat.
Definition no_zero (s : list byte) : Prop := forall c, In c s -> N_of_byte c <> 0%N.
