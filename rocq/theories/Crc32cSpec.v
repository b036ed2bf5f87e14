(** What "a burst of flipped bits" means: bits are taken least significant first in each byte. *)
From Verif Require Import Bytes.

Definition bits_of_byte (b : byte) : list bool :=
  match b with Ascii b0 b1 b2 b3 b4 b5 b6 b7 => [b0; b1; b2; b3; b4; b5; b6; b7] end.
Definition bits (l : list byte) : list bool := flat_map bits_of_byte l.

(** bitwise difference of two strings of the same length *)
Definition diff (x y : list byte) : list bool :=
  map (fun p => xorb (fst p) (snd p)) (combine (bits x) (bits y)).

(** [burst n d]: [d] is not all false and all its true bits lie within [n] adjacent positions. *)
Definition burst (n : nat) (d : list bool) : Prop :=
  exists a e b, d = repeat false a ++ e ++ repeat false b /\ length e <= n /\ In true e.
