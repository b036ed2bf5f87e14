(** Columns and chunks of rows: C94, C95, C96. *)
From Verif Require Import Bytes Outcome IndexingModel VecModel VecSpec VecProofs VecProofs2.
Local Open Scope nat_scope.
Local Open Scope Z_scope.

(** ** C94: a vector shows the same values in every form *)
(** Missing: parts of a sequence that was not written out, rows of a long constant copied from an offset, values written
    after the vector was made; refuted below. *)
Theorem C94_partial s us l :
  can_build s = true -> can_uses (form_of s) (shown s) us = true -> effects (shown s) us = Some l ->
  forall h, exists h1 v1 h2 v2 h3 v3 u, build h s = Ok (h1, v1) /\ performs h1 v1 (length (shown s)) us = Ok (h2, v2, length l) /\
  to_unified h2 v2 (length l) = Ok (h3, v3, u) /\
  forall i x, nth_error l i = Some x -> value h2 v2 i = Ok x /\ unified_row h3 u i = Ok x /\ value h3 v3 i = Ok x.
Proof. exact (vector_reads s us l). Qed.
Print Assumptions C94_partial.

Example C94_partial_rows :
  let s := Rows 5 [Some 10; None; Some 30; Some 40] in
  let us := [Select [3; 1; 0; 1]%nat; Interval 1 4; Unify; Select [2; 1; 0]%nat; CopyFrom 1; Flatten; Interval 1 2] in
  can_build s = true /\ can_uses (form_of s) (shown s) us = true /\ effects (shown s) us = Some [None].
Proof. split; [vm_compute; reflexivity|]. split; [vm_compute; reflexivity|vm_compute; reflexivity]. Qed.
Example C94_partial_constant :
  let s := Repeat None 6 in
  let us := [Interval 2 6; Select [0; 3; 1]%nat; CopyFrom 1; Select [1]%nat] in
  can_build s = true /\ can_uses (form_of s) (shown s) us = true /\ effects (shown s) us = Some [None].
Proof. split; [vm_compute; reflexivity|]. split; [vm_compute; reflexivity|vm_compute; reflexivity]. Qed.
Example C94_partial_sequence :
  let s := Numbers 100 (-7) 4 in
  let us := [Unify; Select [3; 0]%nat; Flatten] in
  can_build s = true /\ can_uses (form_of s) (shown s) us = true /\ effects (shown s) us = Some [Some 79; Some 100].
Proof. split; [vm_compute; reflexivity|]. split; [vm_compute; reflexivity|vm_compute; reflexivity]. Qed.

Notation none_yet := ({| mem := []; bufs := [] |}) (only parsing).
(** The value of a row after the uses. *)
Definition read_after (s : source) (us : list use) (i : nat) : res (option Z) :=
  do '(h1, v1) <- build none_yet s; do '(h2, v2, _) <- performs h1 v1 (length (shown s)) us; value h2 v2 i.
(** Rows selected from a sequence cannot be read. *)
Theorem C94_sequence_refuted : exists s us l i x,
  can_build s = true /\ effects (shown s) us = Some l /\ nth_error l i = Some x /\
  (exists w, (do '(h1, v1) <- build none_yet s; performs h1 v1 (length (shown s)) us) = Ok w) /\ read_after s us i = Err UB.
Proof.
  exists (Numbers 10 5 4), [Select [3; 1]%nat], [Some 25; Some 15], 0%nat, (Some 25).
  split; [vm_compute; reflexivity|]. split; [vm_compute; reflexivity|]. split; [vm_compute; reflexivity|]. split; [eexists; vm_compute; reflexivity|vm_compute; reflexivity].
Qed.
Print Assumptions C94_sequence_refuted.
(** More than 1024 numbers of a sequence cannot be copied. *)
Theorem C94_sequence_copy_refuted : exists s us l,
  can_build s = true /\ effects (shown s) us = Some l /\
  (do '(h1, v1) <- build none_yet s; performs h1 v1 (length (shown s)) us) = Err UB.
Proof.
  exists (Numbers 0 1 1025), [CopyFrom 0], (numbers 0 1 1025).
  split; [vm_compute; reflexivity|]. split; [vm_compute; reflexivity|vm_compute; reflexivity].
Qed.
Print Assumptions C94_sequence_copy_refuted.
(** Rows of a constant from an offset on. *)
Theorem C94_constant_offset_refuted : exists s us l,
  can_build s = true /\ effects (shown s) us = Some l /\
  (do '(h1, v1) <- build none_yet s; performs h1 v1 (length (shown s)) us) = Err UB.
Proof.
  exists (Repeat (Some 7) 1030), [CopyFrom 10], (repeat (Some 7) 1020).
  split; [vm_compute; reflexivity|]. split; [vm_compute; reflexivity|vm_compute; reflexivity].
Qed.
Print Assumptions C94_constant_offset_refuted.
(** A vector that had a NULL and is set to one value: a row is NULL once it was written out. *)
Theorem C94_null_refuted : exists l x n i h1 v1 h2 v2,
  (let '(h, v) := new_vec none_yet n in do '(h', v') <- set_col h v 0 l; reference_value h' v' (Some x)) = Ok (h1, v1) /\
  (i < n)%nat /\ value h1 v1 i = Ok (Some x) /\ flatten h1 v1 n = Ok (h2, v2) /\ value h2 v2 i = Ok None.
Proof.
  exists [Some 1; None], 5, 2%nat, 1%nat. do 4 eexists.
  split; [vm_compute; reflexivity|]. split; [auto|]. split; [vm_compute; reflexivity|]. split; [vm_compute; reflexivity|vm_compute; reflexivity].
Qed.
Print Assumptions C94_null_refuted.
(** NULL written through a selection is not read back. *)
Theorem C94_write_refuted : exists s us i x h1 v1 h2 v2 n h3 v3,
  can_build s = true /\ build none_yet s = Ok (h1, v1) /\ performs h1 v1 (length (shown s)) us = Ok (h2, v2, n) /\ (i < n)%nat /\
  set_value h2 v2 i None = Ok (h3, v3) /\ value h3 v3 i = Ok (Some x).
Proof.
  exists (Rows 3 [Some 1; Some 2; Some 3]), [Select [2; 0]%nat], 0%nat, 3. do 7 eexists.
  split; [vm_compute; reflexivity|]. split; [vm_compute; reflexivity|]. split; [vm_compute; reflexivity|]. split; [auto|].
  split; [vm_compute; reflexivity|vm_compute; reflexivity].
Qed.
Print Assumptions C94_write_refuted.

(** ** C95: chunks are tables *)
(** Missing: chunks that refer to the columns of another, appending after rows were chosen, [reset]; refuted below. *)
Theorem C95_partial l ts :
  history [] [] l = Some ts ->
  exists h e, acts_on none_yet [] l = Ok (h, e) /\ length e = length ts /\
  forall k c t, nth_error e k = Some c -> nth_error ts k = Some t -> shows h c t.
Proof. exact (chunks_show l ts). Qed.
Print Assumptions C95_partial.

Example C95_partial_case :
  history [] [] [Make 2 [[Some 1; None]; [None; Some 20]]; Make 3 [[Some 5; Some 6; Some 7]; [Some 50; None; Some 70]];
                 Append 0 1 true (Some [2; 0; 2]%nat); Choose 1 [1; 0]%nat; Append 0 1 true None; CopyOf 0 5 4; Append 2 1 false None; WriteOut 1; Choose 0 [6; 1]%nat] =
  Some [[[Some 5; None]; [Some 50; Some 20]]; [[Some 6; Some 5]; [None; Some 50]]; [[Some 6; Some 5; Some 6; Some 5]; [None; Some 50; None; Some 50]]].
Proof. vm_compute. reflexivity. Qed.

(** What the tables are after calls, without the guard. *)
Fixpoint tables (ts : list (list (list (option Z)))) (l : list act) : option (list (list (list (option Z)))) :=
  match l with [] => Some ts | a :: r => match after ts a with Some ts' => tables ts' r | None => None end end.
(** Rows appended to a chunk that was written out after rows were chosen leave its memory. *)
Theorem C95_flatten_append_refuted : exists l ts, tables [] l = Some ts /\ acts_on none_yet [] l = Err UB.
Proof.
  exists [Make 4 [[Some 1; Some 2]]; Make 1 [[Some 9]]; Choose 0 [1]%nat; WriteOut 0; Append 0 1 false None], [[[Some 2; Some 9]]; [[Some 9]]].
  split; [vm_compute; reflexivity|vm_compute; reflexivity].
Qed.
Print Assumptions C95_flatten_append_refuted.
(** A chunk that refers to another cannot be read once the other one grew. *)
Theorem C95_reference_refuted : exists l h c s h' c',
  acts_on none_yet [] l = Ok (h, [c; s]) /\ shows h (reference c) [[Some 1; Some 2]] /\ append h c s true None = Ok (h', c') /\
  exists v, nth_error (cols (reference c)) 0 = Some v /\ value h' v 0 = Err UB.
Proof.
  exists [Make 2 [[Some 1; Some 2]]; Make 1 [[Some 9]]]. do 5 eexists. split; [vm_compute; reflexivity|]. split.
  { split; [vm_compute; reflexivity|]. split; [vm_compute; reflexivity|]. intros [|[|k]] v l Nv Nl; cbn in Nv, Nl; try discriminate.
    injection Nv as <-. injection Nl as <-. intros [|[|[|i]]] x Ni; cbn in Ni; try discriminate; injection Ni as <-; vm_compute; reflexivity. }
  split; [vm_compute; reflexivity|]. eexists. split; [vm_compute; reflexivity|vm_compute; reflexivity].
Qed.
Print Assumptions C95_reference_refuted.
(** A chunk that was emptied takes itself to have room for 1024 rows. *)
Theorem C95_reset_refuted : exists l h c s,
  acts_on none_yet [] l = Ok (h, [c; s]) /\ append h (reset c) s false None = Err UB /\
  (exists h' c', append h {| cols := cols c; count := 0; cap := cap c |} s true None = Ok (h', c') /\ shows h' c' [[Some 7; Some 8; Some 9]]).
Proof.
  exists [Make 2 [[Some 1; Some 2]]; Make 3 [[Some 7; Some 8; Some 9]]]. do 3 eexists. split; [vm_compute; reflexivity|]. split; [vm_compute; reflexivity|].
  do 2 eexists. split; [vm_compute; reflexivity|]. split; [vm_compute; reflexivity|]. split; [vm_compute; reflexivity|].
  intros [|[|k]] v l Nv Nl; cbn in Nv, Nl; try discriminate.
  injection Nv as <-. injection Nl as <-. intros [|[|[|[|i]]]] x Ni; cbn in Ni; try discriminate; injection Ni as <-; vm_compute; reflexivity.
Qed.
Print Assumptions C95_reset_refuted.

(** ** C96: the rows of an INSERT reach the plan *)
(** Missing: more than 1024 rows; refuted for all of them. *)
Theorem C96_partial t capacity :
  even t = true -> t <> [] -> (rows t <= capacity)%nat -> (rows t <= 1024)%nat ->
  exists h c h' c', acts_on none_yet [] [Make capacity t] = Ok (h, [c]) /\ raw_data h c = Ok (h', c') /\ shows h' c' t.
Proof. exact (raw_small t capacity). Qed.
Print Assumptions C96_partial.
Theorem C96_refuted t capacity :
  even t = true -> t <> [] -> (rows t <= capacity)%nat -> (1024 < rows t)%nat ->
  exists h c, acts_on none_yet [] [Make capacity t] = Ok (h, [c]) /\ shows h c t /\ raw_data h c = Err UB.
Proof. exact (raw_large t capacity). Qed.
Print Assumptions C96_refuted.

Example C96_partial_case : let t := [[Some 1; None; Some 3]; [None; Some 5; Some 6]] in
  even t = true /\ t <> [] /\ (rows t <= 3)%nat /\ (rows t <=? 1024)%nat = true.
Proof. split; [vm_compute; reflexivity|]. split; [discriminate|]. split; [auto|vm_compute; reflexivity]. Qed.
Example C96_refuted_case : let t := [repeat (Some 1) 1025] in
  even t = true /\ t <> [] /\ (rows t <=? 1025)%nat = true /\ (1024 <? rows t)%nat = true.
Proof. split; [vm_compute; reflexivity|]. split; [discriminate|]. split; [vm_compute; reflexivity|vm_compute; reflexivity]. Qed.
