(** C40, C70, C71, C72: the rows of a table *)
From Verif Require Import Bytes Outcome VersionModel RowDelModel RowDelSpec VersionProofs RowGrpModel RowGrpSpec RowGrpProofs.
Local Open Scope nat_scope.

(** *** C40 *)
(** After any sequence of insertions and merges the groups are consecutive, none is larger than the group
    size, and together they hold the rows given, in order. *)
Theorem C40_layout A size start (ops : list (op A)) : 0 < size -> Forall (op_ok size) ops ->
  exists c, run {| gsize := size; row_start := start; total := 0; groups := [] |} ops = Ok c /\ layout c (concat (map rows_of ops)) /\ gsize c = size /\ row_start c = start.
Proof. exact (new_layout size start ops). Qed.
Print Assumptions C40_layout.
(** Each row id is in exactly one group, which the lookup finds, at the place of that row; ids after the last
    row are not found. *)
Theorem C40_lookup A (c : coll A) rows : layout c rows -> (N.of_nat (length (groups c)) < 2 ^ 63)%N ->
  (forall id, row_start c <= id < row_start c + length rows -> exists k g, lookup (groups c) id = Ok (Some k) /\ nth_error (groups c) k = Some g /\
      g_start g <= id < g_start g + g_count g /\ nth_error (g_data g) (id - g_start g) = nth_error rows (id - row_start c) /\
      forall j h, nth_error (groups c) j = Some h -> g_start h <= id < g_start h + g_count h -> j = k) /\
  (forall id, row_start c + length rows <= id -> lookup (groups c) id = Ok None).
Proof. exact (lookup_all c rows). Qed.
Print Assumptions C40_lookup.
(** Ten rows in groups of four, in two insertions of three chunks, and a merge. *)
Definition ten : list (op nat) := [Insert [[1; 2; 3]; [4; 5]]; Insert [[6; 7; 8; 9; 10]]].
Definition four (start : nat) (l : list (op nat)) := run {| gsize := 4; row_start := start; total := 0; groups := [] |} l.
Example C40_case : exists e c, four 7 ten = Ok e /\ four 100 (ten ++ [Merge e]) = Ok c /\
  map (fun g => (g_start g, g_data g)) (groups c) = [(100, [1; 2; 3; 4]); (104, [5; 6; 7; 8]); (108, [9; 10]); (110, [1; 2; 3; 4]); (114, [5; 6; 7; 8]); (118, [9; 10])] /\
  total c = 20 /\ lookup (groups c) 115 = Ok (Some 4) /\ lookup (groups c) 120 = Ok None.
Proof. do 2 eexists. split; [vm_compute; reflexivity|]. split; [vm_compute; reflexivity|]. vm_compute. repeat split. Qed.

(** *** C70 *)
(** The rows with given ids, in the order of the ids; ids after the last row are skipped. *)
Theorem C70_fetch A (c : coll A) rows ids : layout c rows -> (N.of_nat (length (groups c)) < 2 ^ 63)%N -> row_start c = 0 ->
  fetch_rows c ids = Ok (flat_map (fun i => match nth_error rows i with Some a => [a] | None => [] end) ids).
Proof. exact (fetch_table c rows ids). Qed.
Print Assumptions C70_fetch.
Example C70_fetch_case : exists c, four 0 ten = Ok c /\ fetch_rows c [8; 0; 20; 4; 4] = Ok [9; 1; 5; 5].
Proof. eexists. split; [vm_compute; reflexivity|]. vm_compute. reflexivity. Qed.

(** After any sequence of insertions and deletions of row ids a scan of the whole table, each vector into a new
    chunk, returns the rows not deleted, in order; [history] says which those are. *)
Theorem C70_scan A (l : list (act A)) c os : moderate l -> acts new_table l = Ok (c, os) ->
  exists rows d, history [] none_deleted l os rows d /\ scan_all c None = Ok (live rows d).
Proof. intros M. exact (acts_scan l c os (proj1 (moderate_bound l M))). Qed.
Print Assumptions C70_scan.
(** Distinct live rows can always be deleted. *)
Theorem C70_delete_live A (l : list (act A)) c os ids : moderate (l ++ [Del ids]) -> acts new_table l = Ok (c, os) ->
  exists rows d, history [] none_deleted l os rows d /\
   (NoDup ids -> (forall r, In r ids -> r < length rows /\ d r = false) -> exists c', delete_ids c ids = Ok (c', Some (length ids))).
Proof. exact (acts_delete_live l c os ids). Qed.
Print Assumptions C70_delete_live.
Definition digits := seq 0 10.
Definition some_acts : list (act nat) := [Ins [repeat 7 1020; digits]; Del [1024; 5; 1025]; Ins [[8]]; Del [6; 5]].
Example C70_case : exists c l, acts new_table some_acts = Ok (c, [Some 3; None]) /\ scan_all c None = Ok l /\ length l = 1027 /\ skipn 1016 l = [7; 7; 0; 1; 2; 3; 6; 7; 8; 9; 8].
Proof. do 2 eexists. split; [vm_compute; reflexivity|]. split; [vm_compute; reflexivity|]. split; vm_compute; reflexivity. Qed.

(** A SELECT over a table of at most 1024 rows returns the live rows that satisfy the condition, up to the
    limit.  Missing: larger tables, see below. *)
Theorem C70_select_partial A (l : list (act A)) c os : moderate l -> acts new_table l = Ok (c, os) -> exists rows d, history [] none_deleted l os rows d /\
  (length rows <= CAP -> forall f limit, select_rows c f limit = Ok (up_to limit (filter (satisfies f) (live rows d)))).
Proof. intros M. exact (acts_select l c os (proj1 (moderate_bound l M))). Qed.
Print Assumptions C70_select_partial.
Example C70_select_case : exists c, acts new_table [Ins [digits]; Del [4; 2]] = Ok (c, [Some 2]) /\ select_rows c (Some Nat.even) (Some 3) = Ok [0; 6; 8] /\ select_rows c None None = Ok [0; 1; 3; 5; 6; 7; 8; 9].
Proof. eexists. split; [vm_compute; reflexivity|]. split; vm_compute; reflexivity. Qed.
(** A SELECT returns the first 1024 rows of any larger table; a scan through the table's API has them all. *)
Theorem C70_first_vector_refuted A (rows : list A) : (N.of_nat (length rows) + 1 < 2 ^ 63)%N -> CAP < length rows ->
  exists c rest, insert new_table [rows] = Ok (c, rest) /\ select_rows c None None = Ok (firstn CAP rows) /\ scan_all c None = Ok rows.
Proof. exact (first_vector rows). Qed.
Print Assumptions C70_first_vector_refuted.
(** A SELECT with a condition that no row among the first 1024 satisfies reads outside the segments of the
    second group. *)
Theorem C70_condition_refuted A (rows : list A) (f : A -> bool) : (N.of_nat (length rows) + 1 < 2 ^ 63)%N -> CAP < length rows -> Forall (fun a => f a = false) (firstn CAP rows) ->
  exists c rest, insert new_table [rows] = Ok (c, rest) /\ select_rows c (Some f) None = Err UB.
Proof. exact (filtered_ub rows f). Qed.
Print Assumptions C70_condition_refuted.
Example C70_condition_case : CAP < length (repeat false 1024 ++ [true]) /\ Forall (fun a => a = false) (firstn CAP (repeat false 1024 ++ [true])).
Proof. split; [vm_compute; lia|]. vm_compute. repeat constructor. Qed.
(** The reason: looking for a row before the first group does not fail, it leaves the list. *)
Theorem C70_below_refuted A (c : coll A) rows row : layout c rows -> (N.of_nat (length (groups c)) < 2 ^ 63)%N -> groups c <> [] -> row < row_start c -> lookup (groups c) row = Err UB.
Proof. exact (lookup_below c rows row). Qed.
Print Assumptions C70_below_refuted.
Example C70_below_case : exists c, four 7 ten = Ok c /\ lookup (groups c) 6 = Err UB.
Proof. eexists. split; [vm_compute; reflexivity|]. vm_compute. reflexivity. Qed.
(** Fetching by id returns deleted rows. *)
Theorem C70_fetch_refuted : exists c, acts new_table [Ins [digits]; Del [4]] = Ok (c, [Some 1]) /\ fetch_rows c [4] = Ok [4].
Proof. eexists. split; [vm_compute; reflexivity|]. vm_compute. reflexivity. Qed.
Print Assumptions C70_fetch_refuted.
(** In groups of more than 1024 rows a vector of which all rows are deleted shifts the rows after it: a scan
    returns the deleted rows in place of those that follow. *)
Theorem C70_skip_refuted A (a b : list A) : length a = CAP -> 0 < length b <= CAP ->
  exists c rest c', insert {| gsize := 2 * CAP; row_start := 0; total := 0; groups := [] |} [a ++ b] = Ok (c, rest) /\ delete_ids c (seq 0 CAP) = Ok (c', Some CAP) /\ scan_all c' None = Ok (firstn (length b) a).
Proof. exact (skipped_vector a b). Qed.
Print Assumptions C70_skip_refuted.
Example C70_skip_case : length (repeat 7 CAP) = CAP /\ 0 < length [1; 2] <= CAP.
Proof. split; [apply repeat_length|]. pose proof VersionProofs.CAP_big. cbn [length]. lia. Qed.

(** *** C71 *)
(** A DELETE with a condition, or on a table some row of which is already deleted, removes exactly the rows
    a SELECT with that condition and limit returns and reports their number.  Missing: tables of more than
    1024 rows, and the case below. *)
Theorem C71_delete_partial A (l : list (act A)) c os : moderate l -> acts new_table l = Ok (c, os) -> exists rows d, history [] none_deleted l os rows d /\
  (length rows <= CAP -> forall f limit, f <> None \/ (exists r, r < length rows /\ d r = true) ->
   exists c', delete_stmt c f limit = Ok (c', Some (length (victims f rows d limit))) /\ scan_all c' None = Ok (live rows (fun r => d r || mem r (victims f rows d limit)))).
Proof. intros M. exact (acts_delete l c os (proj1 (moderate_bound l M)) (proj2 (moderate_bound l M))). Qed.
Print Assumptions C71_delete_partial.
Example C71_case : exists c c' c'', acts new_table [Ins [digits]; Del [4; 2]] = Ok (c, [Some 2]) /\ delete_stmt c (Some Nat.even) (Some 2) = Ok (c', Some 2) /\ scan_all c' None = Ok [1; 3; 5; 7; 8; 9] /\
  delete_stmt c' None None = Ok (c'', Some 6) /\ scan_all c'' None = Ok [].
Proof. do 3 eexists. split; [vm_compute; reflexivity|]. split; [vm_compute; reflexivity|]. split; [vm_compute; reflexivity|]. split; vm_compute; reflexivity. Qed.
(** A DELETE without a condition on a freshly loaded table deletes its first row and reports that it deleted
    all of them. *)
Theorem C71_all_refuted A (rows : list A) : 0 < length rows <= CAP -> exists c rest c', insert new_table [rows] = Ok (c, rest) /\
  delete_stmt c None None = Ok (c', Some (length rows)) /\ scan_all c' None = Ok (tl rows).
Proof. exact (delete_everything rows). Qed.
Print Assumptions C71_all_refuted.
(** A DELETE with a condition leaves the matching rows after the first 1024. *)
Theorem C71_later_rows_refuted : exists c rest c', insert new_table [true :: repeat false 1023 ++ [true]] = Ok (c, rest) /\ delete_stmt c (Some (fun b => b)) None = Ok (c', Some 1) /\ scan_all c' None = Ok (repeat false 1023 ++ [true]).
Proof. do 3 eexists. split; [vm_compute; reflexivity|]. split; [vm_compute; reflexivity|]. vm_compute. reflexivity. Qed.
Print Assumptions C71_later_rows_refuted.

(** *** C72 *)
(** An INSERT that stays in the first group returns the rows inserted.  Missing: the case below. *)
Theorem C72_output_partial A (l : list (act A)) c os : moderate l -> acts new_table l = Ok (c, os) -> exists rows d, history [] none_deleted l os rows d /\
  forall chunk, length rows + length chunk <= CAP -> exists c', insert c [chunk] = Ok (c', chunk) /\ scan_all c' None = Ok (live (rows ++ chunk) d).
Proof. exact (acts_output l c os). Qed.
Print Assumptions C72_output_partial.
Example C72_case : exists c c', acts new_table [Ins [digits]; Del [4; 2]] = Ok (c, [Some 2]) /\ insert c [[5; 6]] = Ok (c', [5; 6]) /\ scan_all c' None = Ok [0; 1; 3; 5; 6; 7; 8; 9; 5; 6].
Proof. do 2 eexists. split; [vm_compute; reflexivity|]. split; vm_compute; reflexivity. Qed.
(** An INSERT of more rows than the first group has room for returns only those that went to the second. *)
Theorem C72_output_refuted A (rows : list A) : CAP < length rows <= 2 * CAP -> exists c, insert new_table [rows] = Ok (c, skipn CAP rows).
Proof. exact (insert_output rows). Qed.
Print Assumptions C72_output_refuted.
