(** Property C44: selections compose. *)
From Verif Require Import Bytes Outcome IndexingModel IndexingSpec IndexingProofs.

(** If [v] selects [mid] from the data and [w] selects [out] from [mid], then slicing [v] by [w]
    succeeds and selects [out] from the data. *)
Theorem C44_slice_composes :
  forall (A : Type) (data : list A) v w m n mid out,
  select v m data = Some mid -> select w n mid = Some out ->
  exists u, slice v w n = Ok u /\ select u n data = Some out.
Proof. exact (@slice_composes). Qed.
Print Assumptions C44_slice_composes.

(** Setting one position changes that position only. *)
Theorem C44_set_index :
  forall v i x v' j, set_index v i x = Ok v' ->
  get_index v' j = if (j =? i)%nat then Ok x else get_index v j.
Proof. exact set_get. Qed.
Print Assumptions C44_set_index.

(** The (start, count) vector selects consecutive rows. *)
Theorem C44_range :
  forall start count i, (i < count)%nat -> get_index (range start count) i = Ok (start + i)%nat.
Proof. exact range_get. Qed.
Print Assumptions C44_range.

Example C44_case :
  select (Some [3; 1; 0]) 3 [10; 20; 30; 40] = Some [40; 20; 10] /\
  select (Some [2; 2; 0]) 2 [40; 20; 10] = Some [10; 10] /\
  slice (Some [3; 1; 0]) (Some [2; 2; 0]) 2 = Ok (Some [0; 0]).
Proof. repeat split. Qed.
