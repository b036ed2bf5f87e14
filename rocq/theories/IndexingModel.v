(** Model of row selections: components/vector/indexing_vector.cpp. *)
From Verif Require Import Bytes Outcome.

(** [None] is a vector without index array (identity), [Some l] an array of [length l] indices. *)
Definition indexing := option (list nat).

(** indexing_vector.cpp:75 [get_index]: reading outside the array is undefined *)
Definition get_index (v : indexing) (i : nat) : res nat :=
  match v with
  | None => Ok i
  | Some l => match nth_error l i with Some x => Ok x | None => Err UB end
  end.

(** indexing_vector.cpp:20-27 constructor (start, count) *)
Definition range (start count : nat) : indexing := Some (seq start count).

(** indexing_vector.cpp:71 [set_index] *)
Fixpoint list_set {A} (l : list A) (i : nat) (x : A) : list A :=
  match l, i with
  | [], _ => []
  | _ :: r, O => x :: r
  | y :: r, S k => y :: list_set r k x
  end.
Definition set_index (v : indexing) (i x : nat) : res indexing :=
  match v with
  | None => Err UB
  | Some l => if (i <? length l)%nat then Ok (Some (list_set l i x)) else Err UB
  end.

(** indexing_vector.cpp:81-90 [slice] *)
Fixpoint slice_loop (v w : indexing) (i n : nat) : res (list nat) :=
  match n with
  | O => Ok []
  | S k => do x <- get_index w i; do y <- get_index v x; do r <- slice_loop v w (S i) k; Ok (y :: r)
  end.
Definition slice (v w : indexing) (count : nat) : res indexing :=
  do l <- slice_loop v w 0 count; Ok (Some l).
