(** Property C76: which rows are NULL is kept exactly.
    Rows are appended in chunks of any size, with or without a mask and through any index vector, to
    segments of any size from 128 bytes on; the model is that of the code on 64-bit words. *)
From Verif Require Import Bytes Outcome ValidModel VSegModel VSegSpec VSegProofs VSegProofs2 VSegProofs3.
Local Open Scope nat_scope.

(** Appends succeed, and a scan of [n] rows that stands anywhere - [before] are the segments it is done
    with, [i] is the row within the next one, possibly its end - marks among these rows exactly the NULLs.
    Rows of the result after the [n] asked for are marked only where the column has a NULL. *)
Theorem C76_scan_partial :
  forall size l, 128 <= size ->
  exists c, append_chunks size [] l = Ok c /\ list_sum (map g_count c) = length (all_rows l) /\
  forall (flat : bool) before c' i n m, c = before ++ c' -> match c' with [] => True | g :: _ => i <= g_count g end ->
  let row := list_sum (map g_count before) + i in
  n <= r_count m -> row + n <= length (all_rows l) -> rmask_ok m -> clean m ->
  exists m', (if flat then column_scan_flat c' i n m else column_scan c' i n m) = Ok m' /\ r_count m' = r_count m /\
    (forall j, j < n -> rvalid m' j = nth (row + j) (all_rows l) true) /\
    (forall j, j < r_count m -> rvalid m' j = false -> nth (row + j) (all_rows l) true = false).
Proof. exact (fun size l H => read_at size l H). Qed.
Print Assumptions C76_scan_partial.

(** Fetching one row marks its place when it is NULL and changes nothing else. *)
Theorem C76_fetch :
  forall size l, 128 <= size ->
  exists c, append_chunks size [] l = Ok c /\
  forall row m idx, row < length (all_rows l) -> idx < r_count m -> rmask_ok m ->
  exists m', column_fetch_row c row m idx = Ok m' /\ r_count m' = r_count m /\
    forall j, j < r_count m -> rvalid m' j = rvalid m j && (negb (j =? idx) || nth row (all_rows l) true).
Proof. exact (fun size l H => fetch_back size H l). Qed.
Print Assumptions C76_fetch.

(** 2051 rows in three appends, every third NULL, over three segments; a scan of 1000 rows from row 1000 on
    crosses a segment and starts between words. *)
Definition third (n : nat) : uvf * nat := (Uvf (Some (fun i => negb (i mod 3 =? 0))) (fun i => i), n).
Example C76_case :
  exists c, append_chunks 128 [] [third 1024; (Uvf None (fun i => i), 3); third 1024] = Ok c /\ length c = 3 /\
  exists m, (let '(c', i) := seek c 1000 in column_scan c' i 1000 (fresh_mask 1024)) = Ok m /\
  map (rvalid m) [0; 1; 2; 3; 24; 25; 26; 27; 28; 29; 30; 997; 998; 999] =
    [true; true; false; true; true; true; true; false; true; true; false; true; true; false].
Proof. eexists. split; [vm_compute; reflexivity|]. split; [reflexivity|]. eexists. split; vm_compute; reflexivity. Qed.

(** Not so: the scan leaves the rows of the result it was not asked for alone (it copies whole words). *)
Theorem C76_after_refuted :
  exists l c m j, append_chunks 128 [] l = Ok c /\ 3 <= length (all_rows l) /\ column_scan c 0 1 (fresh_mask 1024) = Ok m /\
    1 <= j /\ j < 1024 /\ rvalid m j = false.
Proof. exists [plain [true; false; true]]. eexists. eexists. exists 1. repeat split; try (vm_compute; reflexivity); vm_compute; lia. Qed.
Print Assumptions C76_after_refuted.

(** Nor does a scan that copies make rows valid that an earlier use of the vector left marked: a row that
    is not NULL reads as NULL. *)
Theorem C76_stale_refuted :
  exists l c m m', append_chunks 128 [] l = Ok c /\ rmask_ok m /\ column_scan_flat c 0 3 m = Ok m' /\
    nth 0 (all_rows l) false = true /\ rvalid m' 0 = false.
Proof.
  exists [plain [true; false; true]]. eexists. exists (RMask (Some (repeat (2 ^ 64 - 2)%N 3)) 3). eexists.
  split; [vm_compute; reflexivity|]. split; [split; [cbn; lia | repeat constructor]|]. repeat split; vm_compute; reflexivity.
Qed.
Print Assumptions C76_stale_refuted.

(** A copying scan that starts inside a word of the segment and inside a word of the result marks rows of
    the result before its first; column_data_t never asks for one (first stretch: result row 0; later
    stretches: row 0 of their segment). *)
Theorem C76_unaligned_refuted :
  exists g m m', holds g [true; false; true; true] /\ clean m /\ scan_partial g 2 2 m 1 = Ok m' /\ rvalid m' 0 = false.
Proof.
  exists (Seg (upd 0 (2 ^ 64 - 3)%N (repeat MAX_ENTRY 16)) 4), (fresh_mask 1024). eexists.
  split; [split; [reflexivity|]; intros [|[|[|[|j]]]] Hj; try (vm_compute; reflexivity); cbn in Hj; lia|].
  split; [intros j _; reflexivity|]. split; vm_compute; reflexivity.
Qed.
Print Assumptions C76_unaligned_refuted.

(** Taking appended rows back keeps the rows before them: always at a multiple of 8, elsewhere while the
    next multiple of 8 is at most the number of words of the segment. *)
Theorem C76_revert_partial :
  forall size u n start, 128 <= size -> n <= max_tuples size -> start <= n ->
  (start mod 8 = 0 \/ (start / 8 + 1) * 8 <= size / 8) ->
  exists g g', append size (new_seg size) u 0 n = Ok (g, n) /\ revert_append g start = Ok g' /\
    holds g (rows_of (u, n)) /\ holds g' (firstn start (rows_of (u, n))).
Proof. exact revert_keeps. Qed.
Print Assumptions C76_revert_partial.
(** At a multiple of 8 the rows appended afterwards are right too. *)
Theorem C76_revert_again_partial :
  forall size u n start u' n', 128 <= size -> n <= max_tuples size -> start <= n -> start mod 8 = 0 -> n' <= max_tuples size - start ->
  exists g g' g'', append size (new_seg size) u 0 n = Ok (g, n) /\ revert_append g start = Ok g' /\ append size g' u' 0 n' = Ok (g'', n') /\
    holds g'' (firstn start (rows_of (u, n)) ++ rows_of (u', n')).
Proof. exact revert_again. Qed.
Print Assumptions C76_revert_again_partial.
Example C76_revert_case :
  exists g g' g'', append 128 (new_seg 128) (fst (third 20)) 0 20 = Ok (g, 20) /\ revert_append g 16 = Ok g' /\
    append 128 g' (fst (plain [true; true; false])) 0 3 = Ok (g'', 3) /\ g_count g'' = 19 /\
    map (fun j => N.testbit (nth 0 (g_words g'') 0%N) (N.of_nat j)) [14; 15; 16; 17; 18] = [true; false; true; true; false].
Proof. repeat eexists; vm_compute; reflexivity. Qed.
(** Elsewhere a NULL that was taken back comes up again in the row appended in its place: the bits up to
    the next multiple of 8 are to be set by [set_valid], which sets another word (validation.cpp:87-92). *)
Theorem C76_revert_refuted :
  exists g g' g'', append 128 (new_seg 128) (fst (plain [true; false])) 0 2 = Ok (g, 2) /\ revert_append g 1 = Ok g' /\
    append 128 g' (fst (plain [true])) 0 1 = Ok (g'', 1) /\ ~ holds g'' [true; true].
Proof.
  eexists. eexists. eexists. split; [vm_compute; reflexivity|]. split; [vm_compute; reflexivity|]. split; [vm_compute; reflexivity|].
  intros [_ H]. specialize (H 1 ltac:(cbn; lia)). vm_compute in H. discriminate.
Qed.
Print Assumptions C76_revert_refuted.
(** And with as many rows as the segment has words [set_valid] writes behind the segment. *)
Theorem C76_revert_outside_refuted :
  exists g, append 128 (new_seg 128) (fst (plain (repeat true 20))) 0 20 = Ok (g, 20) /\ revert_append g 17 = Err UB.
Proof. eexists. split; vm_compute; reflexivity. Qed.
Print Assumptions C76_revert_outside_refuted.
