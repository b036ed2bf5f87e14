(** Property C43: NULL masks behave as sets of positions.
    [valid h m j] is the meaning of a mask (ValidSpec).  Every theorem below holds for all heaps and masks
    in good order ([mask_ok]) and all rows inside the mask, and also says that nothing else changes
    ([post]).  Missing from the full property are the refuted operations at the end of the file. *)
From Verif Require Import Bytes Outcome ValidModel ValidSpec ValidProofs ValidProofs2 ValidProofs3.
Local Open Scope nat_scope.

Theorem C43_row_is_valid :
  forall h m j, mask_ok h m -> j < mcnt m -> row_is_valid h m j = Ok (valid h m j).
Proof. exact row_is_valid_ok. Qed.
Print Assumptions C43_row_is_valid.

Theorem C43_set :
  forall h m row v, mask_ok h m -> row < mcnt m ->
  exists h' m', set h m row v = Ok (h', m') /\ post h h' m m' /\
    forall j, j < mcnt m -> valid h' m' j = if j =? row then v else valid h m j.
Proof. exact set_spec. Qed.
Print Assumptions C43_set.

Theorem C43_set_invalid :
  forall h m row, mask_ok h m -> row < mcnt m ->
  exists h' m', set_invalid h m row = Ok (h', m') /\ post h h' m m' /\
    forall j, j < mcnt m -> valid h' m' j = if j =? row then false else valid h m j.
Proof. exact set_invalid_spec. Qed.
Print Assumptions C43_set_invalid.

(** Growing keeps the old rows and makes the new ones valid (from the next multiple of 64 on; the rest of
    the last word keeps whatever bits it had); a mask with an array never shrinks. *)
Theorem C43_resize_partial :
  forall h m n, mask_ok h m ->
  exists h' m', resize h m n = Ok (h', m') /\ mask_ok h' m' /\ mcnt m' = (if (if mptr m then n <=? mcnt m else false) then mcnt m else n) /\
    length h <= length h' /\ (forall b, b < length h -> nth_error h' b = nth_error h b) /\
    (forall j, j < mcnt m -> j < mcnt m' -> valid h' m' j = valid h m j) /\
    (forall j, 64 * ((mcnt m + 63) / 64) <= j -> mcnt m <= j < mcnt m' -> valid h' m' j = true).
Proof. exact resize_spec. Qed.
Print Assumptions C43_resize_partial.

(** A copy has the same rows and shares nothing that existed before. *)
Theorem C43_copy :
  forall h m, mask_ok h m ->
  exists h' m', copy h m = Ok (h', m') /\ mask_ok h' m' /\ mcnt m' = mcnt m /\
    length h <= length h' /\ (forall b, b < length h -> nth_error h' b = nth_error h b) /\
    (forall b, b < length h -> mptr m' <> Some b) /\
    (forall j, j < mcnt m -> valid h' m' j = valid h m j).
Proof. exact copy_spec. Qed.
Print Assumptions C43_copy.

(** Combining is intersection on the first [count] rows; both inputs stay as they are.  Guard: the other
    mask is at least as long. *)
Theorem C43_combine_partial :
  forall h m o count, mask_ok h m -> mask_ok h o -> count <= mcnt m -> mcnt m <= mcnt o ->
  exists h' m', combine h m o count = Ok (h', m') /\ mask_ok h' m' /\ mcnt m' = mcnt m /\
    length h <= length h' /\ (forall b, b < length h -> nth_error h' b = nth_error h b) /\
    (forall j, j < count -> valid h' m' j = valid h m j && valid h o j) /\
    (forall j, 64 * ((count + 63) / 64) <= j -> mptr m <> None -> j < mcnt m -> valid h' m' j = valid h m j).
Proof. exact combine_spec. Qed.
Print Assumptions C43_combine_partial.

(** Copying a stretch of rows, at any two positions and for any length. *)
Theorem C43_slice_in_place_partial :
  forall h m o toff soff count, mask_ok h m -> mask_ok h o -> unshared m o ->
  toff + count <= mcnt m -> soff + count <= mcnt o -> slice_defined m o toff soff = true ->
  exists h' m', slice_in_place h m o toff soff count = Ok (h', m') /\ post h h' m m' /\
    forall j, j < mcnt m -> valid h' m' j =
      if (toff <=? j) && (j <? toff + count) then valid h o (soff + (j - toff)) else valid h m j.
Proof. exact slice_in_place_spec. Qed.
Print Assumptions C43_slice_in_place_partial.

(** A slice from another position than 0 has its own array. *)
Theorem C43_slice :
  forall h m o offset count, mask_ok h o -> offset + count <= mcnt o ->
  exists h' m', slice h m o offset count = Ok (h', m') /\ mask_ok h' m' /\
    length h <= length h' /\ (forall b, b < length h -> nth_error h' b = nth_error h b) /\
    (forall j, j < count -> valid h' m' j = valid h o (offset + j)) /\
    (offset <> 0 -> forall b, b < length h -> mptr m' <> Some b).
Proof. exact slice_spec. Qed.
Print Assumptions C43_slice.

(** Copying through an index vector (or without one). *)
Theorem C43_copy_indexing :
  forall h m o sel soff toff count, mask_ok h m -> mask_ok h o -> unshared m o ->
  toff + count <= mcnt m ->
  (forall i, i < count -> exists s, (match sel with None => Some (soff + i) | Some l => nth_error l (soff + i) end) = Some s /\ s < mcnt o) ->
  exists h' m', copy_indexing h m o sel soff toff count = Ok (h', m') /\ post h h' m m' /\
    forall j, j < mcnt m -> valid h' m' j =
      if (toff <=? j) && (j <? toff + count)
      then valid h o (match sel with None => soff + (j - toff) | Some l => nth (soff + (j - toff)) l 0 end) else valid h m j.
Proof. exact copy_indexing_spec. Qed.
Print Assumptions C43_copy_indexing.

(** Counting, when the mask has no array or the number of rows is a multiple of 64. *)
Theorem C43_count_valid_partial :
  forall h m count, mask_ok h m -> count <= mcnt m -> mptr m = None \/ count mod 64 = 0 ->
  count_valid h m count = Ok (valid_rows h m count).
Proof. exact count_valid_spec. Qed.
Print Assumptions C43_count_valid_partial.

(** Marking the first [count] rows invalid, when the mask has an array. *)
Theorem C43_set_all_invalid_partial :
  forall h m count, mask_ok h m -> mptr m <> None -> count <= mcnt m ->
  exists h', set_all_invalid h m count = Ok h' /\ mask_ok h' m /\ untouched h h' m /\
    (forall j, j < count -> valid h' m j = false) /\
    (forall j, 64 * ((count + 63) / 64) <= j -> valid h' m j = valid h m j).
Proof. exact set_all_invalid_spec. Qed.
Print Assumptions C43_set_all_invalid_partial.

(** ** A mask with rows 1 and 70 invalid, used below. *)
Definition h0 : heap := [ [ (2 ^ 64 - 3)%N; (2 ^ 64 - 1 - 2 ^ 6)%N ] ++ fresh 98 ].
Definition m0 : mask := {| mptr := Some 0; mcnt := 100 |}.
Example C43_demo_ok : mask_ok h0 m0.
Proof.
  exists (nth 0 h0 []). split; [reflexivity|]. split; [vm_compute; lia|].
  apply Forall_forall. intros w H. assert (X : forallb (fun w => (w <? 2 ^ 64)%N) (nth 0 h0 []) = true) by (vm_compute; reflexivity).
  rewrite forallb_forall in X. apply N.ltb_lt. apply X. exact H.
Qed.
Example C43_demo : filter (fun j => negb (valid h0 m0 j)) (seq 0 100) = [1; 70].
Proof. vm_compute. reflexivity. Qed.
(** cut rows 60.. (a position inside a word): row 70 becomes row 10 *)
Example C43_demo_slice : exists h' m', slice h0 m0 m0 60 40 = Ok (h', m') /\ filter (fun j => negb (valid h' m' j)) (seq 0 40) = [10].
Proof. do 2 eexists. split; [vm_compute; reflexivity|]. vm_compute. reflexivity. Qed.
Example C43_demo_copy_indexing : exists h' m',
  copy_indexing (h0 ++ [fresh 5]) {| mptr := Some 1; mcnt := 5 |} m0 (Some [9; 70; 3; 1]) 1 2 3 = Ok (h', m') /\
  map (valid h' m') (seq 0 5) = [true; true; false; true; false].
Proof. do 2 eexists. split; [vm_compute; reflexivity|]. vm_compute. reflexivity. Qed.
Example C43_demo_count : count_valid h0 m0 64 = Ok 63%N.
Proof. vm_compute. reflexivity. Qed.

(** ** Where the code does not do what the property says *)

(** [set_valid(row)] stores 1 in the word numbered [row]: the row stays invalid and rows that were valid
    become invalid. *)
Theorem C43_set_valid_refuted :
  exists h' m', set_valid h0 m0 1 = Ok (h', m') /\ valid h' m' 1 = false /\ valid h0 m0 65 = true /\ valid h' m' 65 = false.
Proof. do 2 eexists. split; [vm_compute; reflexivity|]. vm_compute. auto. Qed.
Print Assumptions C43_set_valid_refuted.

(** [count_valid] adds the masked word itself for the last partial word: 3 rows, 1 invalid, counted as 5. *)
Theorem C43_count_valid_refuted : count_valid h0 m0 3 = Ok 5%N /\ valid_rows h0 m0 3 = 2%N.
Proof. vm_compute. auto. Qed.
Print Assumptions C43_count_valid_refuted.

(** [set_all_invalid] on a mask without an array writes through the null pointer (vector.cpp:873 calls it
    on the mask of a new vector). *)
Theorem C43_set_all_invalid_refuted : forall n, set_all_invalid [] {| mptr := None; mcnt := n |} 1 = Err UB.
Proof. reflexivity. Qed.
Print Assumptions C43_set_all_invalid_refuted.

(** It also makes later rows of the same word valid. *)
Theorem C43_set_all_invalid_revives_refuted :
  exists h', set_all_invalid h0 m0 66 = Ok h' /\ valid h0 m0 70 = false /\ valid h' m0 70 = true.
Proof. eexists. split; [vm_compute; reflexivity|]. vm_compute. auto. Qed.
Print Assumptions C43_set_all_invalid_revives_refuted.

(** Copying rows from a mask without an array at an unaligned position to an aligned one reads through
    the null pointer. *)
Theorem C43_slice_in_place_refuted :
  forall soff count, soff mod 64 <> 0 ->
  slice_in_place h0 m0 {| mptr := None; mcnt := soff + count |} 0 soff count = Err UB.
Proof.
  intros soff count H. unfold slice_in_place. cbn [mptr m0 andb ensure rbind snd].
  unfold aligned. change BITS with 64. apply Nat.eqb_neq in H. rewrite H. reflexivity.
Qed.
Print Assumptions C43_slice_in_place_refuted.

(** A slice from position 0 shares the array: changing the slice changes the original. *)
Theorem C43_slice_shares_refuted :
  exists s h' s', slice h0 m0 m0 0 10 = Ok (h0, s) /\ set h0 s 5 false = Ok (h', s') /\
    valid h0 m0 5 = true /\ valid h' m0 5 = false.
Proof. do 3 eexists. split; [reflexivity|]. split; [vm_compute; reflexivity|]. vm_compute. auto. Qed.
Print Assumptions C43_slice_shares_refuted.

(** Combining an all-valid mask with a shorter one reads past the end of the other array, even if only
    the rows both have are asked for. *)
Theorem C43_combine_refuted :
  exists o, mask_ok [fresh 2] o /\ mcnt o = 2 /\ combine [fresh 2] {| mptr := None; mcnt := 3 |} o 2 = Err UB.
Proof.
  exists {| mptr := Some 0; mcnt := 2 |}. split; [|split; reflexivity].
  exists (fresh 2). split; [reflexivity|]. split; [vm_compute; lia|]. repeat constructor.
Qed.
Print Assumptions C43_combine_refuted.
