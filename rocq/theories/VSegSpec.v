(** What the column of NULLs has to give back (C76), in terms of the rows that were appended. *)
From Verif Require Import Bytes ValidModel VSegModel.
Local Open Scope nat_scope.

(** Row [j] of a result is not NULL: it has no array, or bit [j mod 64] of word [j / 64] is set. *)
Definition rvalid (m : rmask) (j : nat) : bool :=
  match r_words m with
  | None => true
  | Some ws => N.testbit (nth (j / 64) ws 0%N) (N.of_nat (j mod 64))
  end.
(** A result in good order: a word for every row, of 64 bits. *)
Definition rmask_ok (m : rmask) : Prop :=
  match r_words m with
  | None => True
  | Some ws => r_count m <= length ws /\ Forall (fun w => (w < 2 ^ 64)%N) ws
  end.
(** All its rows are valid so far (as in a vector just made). *)
Definition clean (m : rmask) : Prop := forall j, j < r_count m -> rvalid m j = true.
(** The rows a segment holds. *)
Definition holds (g : seg) (rows : list bool) : Prop :=
  g_count g = length rows /\
  forall j, j < length rows -> N.testbit (nth (j / 64) (g_words g) 0%N) (N.of_nat (j mod 64)) = nth j rows true.

(** The rows of one append: [true] for not NULL. *)
Definition rows_of (a : uvf * nat) : list bool :=
  map (fun i => match u_valid (fst a) with None => true | Some v => v (u_idx (fst a) i) end) (seq 0 (snd a)).
Definition all_rows (l : list (uvf * nat)) : list bool := concat (map rows_of l).
(** An append of the rows of a list. *)
Definition plain (l : list bool) : uvf * nat := (Uvf (Some (fun i => nth i l true)) (fun i => i), length l).
