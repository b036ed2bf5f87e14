(** What a column of strings has to give back (C42), in terms of the rows that were appended. *)
From Verif Require Import Bytes.

(** A row is a string or NULL.  That a row is NULL is kept elsewhere; its place reads as no bytes. *)
Definition value (v : option (list byte)) : list byte := match v with Some s => s | None => [] end.

(** Row [i] is a string shorter than [lim], or a NULL such that the last string before it, if there is
    one, is shorter than [lim]. *)
Definition readable (lim : nat) (rows : list (option (list byte))) (i : nat) : Prop :=
  match nth_error rows i with
  | Some (Some s) => length s < lim
  | Some None =>
      forall j s, j < i -> nth_error rows j = Some (Some s) ->
      (forall k, j < k -> k < i -> nth_error rows k = Some None) -> length s < lim
  | None => False
  end.
