(** What a selection means: the rows of [data] it picks, in order. *)
From Verif Require Import Bytes Outcome IndexingModel.

(** the first [n] rows selected by [v] from [data]; [None] when the selection leaves the data *)
Fixpoint pick {A} (data : list A) (idx : list nat) : option (list A) :=
  match idx with
  | [] => Some []
  | i :: r => match nth_error data i, pick data r with Some x, Some l => Some (x :: l) | _, _ => None end
  end.
Definition select {A} (v : indexing) (n : nat) (data : list A) : option (list A) :=
  match v with
  | None => if (n <=? length data)%nat then Some (firstn n data) else None
  | Some l => if (n <=? length l)%nat then pick data (firstn n l) else None
  end.
