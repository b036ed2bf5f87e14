(** C41, C73: updates of rows *)
From Verif Require Import Bytes Outcome VersionModel RowDelModel RowDelSpec RowGrpModel RowGrpSpec UpdModel UpdSpec UpdProofs.
Local Open Scope nat_scope.

(** *** C41 *)
(** After any sequence of insertions, deletions and updates that completes, a scan of the table, each vector
    into a new chunk, returns the live rows and a fetch by id the rows asked for, with the last value written to each; [uhistory] says which
    those are.  Missing: calls of update that name a row twice, calls that do not complete, and reading with a
    condition; see below. *)
Theorem C41_read_back_partial A sort (l : list (uact A)) t os : sorts sort -> u_moderate l -> once l -> uacts sort new_tab l = Ok (t, os) ->
  exists rows d, uhistory [] none_deleted l os rows d /\ u_scan_all t None = Ok (live rows d) /\
    forall ids, u_fetch t ids = Ok (flat_map (fun i => match nth_error rows i with Some a => [a] | None => [] end) ids).
Proof. intros HS. exact (u_read_back sort HS l t os). Qed.
Print Assumptions C41_read_back_partial.
(** An update completes when its ids are increasing and of rows of the table and, among the 1024 rows of each
    such row, either none was updated before or one that is not before it. *)
Theorem C41_completes_partial A sort (l : list (uact A)) t os w : sorts sort -> u_moderate l -> once l -> uacts sort new_tab l = Ok (t, os) ->
  exists rows d, uhistory [] none_deleted l os rows d /\
   (increasing (map fst w) = true -> (forall r, In r (map fst w) -> r < length rows) -> not_beyond l w -> exists t', update_rows sort t w = Ok t').
Proof. intros HS. exact (u_completes sort HS l t os w). Qed.
Print Assumptions C41_completes_partial.
(** Twelve hundred rows; two updates of rows of both groups, a deletion, and a further insertion and update. *)
Definition some_uacts : list (uact nat) :=
  [UIns [repeat 7 1000; repeat 8 200]; UUpd [(3, 30); (9, 90); (1100, 50)]; UDel [4]; UUpd [(9, 91); (5, 55); (1099, 49)]; UIns [[1; 2]]; UUpd [(0, 60)]].
Example C41_case : once some_uacts /\ exists t, uacts isort new_tab some_uacts = Ok (t, [Some 1]) /\
  u_fetch t [0; 1; 3; 5; 9; 1099; 1100; 1101; 1201; 5000] = Ok [60; 7; 30; 55; 91; 49; 50; 8; 2] /\ exists l, u_scan_all t None = Ok l /\ firstn 9 l = [60; 7; 7; 30; 55; 7; 7; 7; 91] /\ length l = 1201.
Proof.
  split.
  - intros w H. repeat (destruct H as [H|H]; [try discriminate H; injection H as <-; cbn [map fst]; repeat (constructor; [intros K; cbn [In] in K; lia|]); constructor|]). destruct H.
  - eexists. split; [vm_compute; reflexivity|]. split; [vm_compute; reflexivity|]. eexists. split; [vm_compute; reflexivity|]. split; vm_compute; reflexivity.
Qed.
Example C41_completes_case : not_beyond some_uacts [(2, 0); (9, 0); (1100, 1)] /\ increasing [2; 9; 1100] = true.
Proof.
  split; [|reflexivity]. intros r [<-|[<-|[<-|[]]]] _; [exists 9|exists 9|exists 1100]; (split; [|split; [vm_compute; reflexivity|cbn [fst]; lia]]).
  - exists [(9, 91); (5, 55); (1099, 49)]. split; cbn; tauto.
  - exists [(9, 91); (5, 55); (1099, 49)]. split; cbn; tauto.
  - exists [(3, 30); (9, 90); (1100, 50)]. split; cbn; tauto.
Qed.
(** An update of a row after all the rows updated before among the same 1024 reads outside the list of ids. *)
Theorem C41_tail_refuted A sort (l : list (uact A)) t os r a : sorts sort -> u_moderate l -> once l -> uacts sort new_tab l = Ok (t, os) ->
  exists rows d, uhistory [] none_deleted l os rows d /\
   (r < length rows -> (exists s, updated l s /\ together s r) -> (forall s, updated l s -> together s r -> s < r) -> update_rows sort t [(r, a)] = Err UB).
Proof. intros HS. exact (u_tail sort HS l t os r a). Qed.
Print Assumptions C41_tail_refuted.
Example C41_tail_case : exists t, uacts isort new_tab [UIns [[7; 8; 9]]; UUpd [(0, 1)]] = Ok (t, []) /\ update_rows isort t [(1, 2)] = Err UB.
Proof. eexists. split; [vm_compute; reflexivity|]. vm_compute. reflexivity. Qed.
(** A call that writes to a row twice may keep the first value: the order of equal ids is that of std::sort. *)
Theorem C41_repeat_refuted : exists sort t t', sorts sort /\ uacts sort new_tab [UIns [[7; 8; 9]]] = Ok (t, []) /\ update_rows sort t [(1, 5); (1, 6)] = Ok t' /\ u_fetch t' [1] = Ok [5].
Proof. exists isort. do 2 eexists. split; [exact isort_sorts|]. split; [vm_compute; reflexivity|]. split; vm_compute; reflexivity. Qed.
Print Assumptions C41_repeat_refuted.
(** Reading with a condition: the condition is evaluated on the old value of the updated row, and the first
    row, which was not updated, is never found. *)
Theorem C41_condition_refuted : forall sort, exists t, uacts sort new_tab [UIns [[0; 1]]; UUpd [(1, 5)]] = Ok (t, []) /\
  u_select t (Some (Nat.eqb 5)) None = Ok [] /\ u_select t (Some (Nat.eqb 1)) None = Ok [5] /\ u_select t (Some (Nat.eqb 0)) None = Ok [] /\ u_select t None None = Ok [0; 5].
Proof. intros sort. eexists. split; [vm_compute; reflexivity|]. repeat split; vm_compute; reflexivity. Qed.
Print Assumptions C41_condition_refuted.

(** *** C73 *)
(** On a table of at most 1024 rows that was not updated before, an UPDATE with a condition, or on a table
    some row of which is deleted, changes exactly the rows a SELECT with that condition and limit returns,
    whichever columns the result of the scan shares with the table ([place]).
    Missing: larger tables, earlier updates, and tables without deleted rows and condition; see below. *)
Theorem C73_where_partial A sort place (l : list (uact A)) t os : sorts sort -> u_moderate l -> once l -> (forall r, ~ updated l r) -> uacts sort new_tab l = Ok (t, os) ->
  exists rows d, uhistory [] none_deleted l os rows d /\
  (length rows <= CAP -> forall f limit set, f <> None \/ (exists r, r < length rows /\ d r = true) -> exists t' rows', update_stmt sort place t f limit set = Ok t' /\ length rows' = length rows /\
    (forall r, nth_error rows' r = if mem r (victims f rows d limit) then option_map set (nth_error rows r) else nth_error rows r) /\ u_scan_all t' None = Ok (live rows' d)).
Proof. intros HS. exact (u_where sort HS place l t os). Qed.
Print Assumptions C73_where_partial.
Example C73_case : (forall r, ~ updated [UIns [seq 0 10]; UDel [4; 2]] r) /\ exists t t' t'', uacts isort new_tab [UIns [seq 0 10]; UDel [4; 2]] = Ok (t, [Some 2]) /\
  update_stmt isort shared t (Some Nat.even) (Some 2) (Nat.add 20) = Ok t' /\ u_scan_all t' None = Ok [20; 1; 3; 5; 26; 7; 8; 9] /\
  update_stmt isort copied t None None S = Ok t'' /\ u_scan_all t'' None = Ok [1; 2; 4; 6; 7; 8; 9; 10].
Proof.
  split; [intros r (w & [H|[H|[]]] & _); discriminate|]. do 3 eexists. split; [vm_compute; reflexivity|]. split; [vm_compute; reflexivity|]. split; [vm_compute; reflexivity|]. split; vm_compute; reflexivity.
Qed.
(** An UPDATE without a condition of a freshly loaded table records a new value for its first row only, the
    new value of some row of the table.  Of the other rows only the columns shared with the result of the scan
    change. *)
Theorem C73_all_refuted A sort place (rows : list A) (set : A -> A) : sorts sort -> 0 < length rows <= CAP ->
  exists t i x t', u_insert new_tab [rows] = Ok t /\ nth_error rows i = Some x /\ update_stmt sort place t None None set = Ok t' /\
  exists rest, u_scan_all t' None = Ok (set x :: rest) /\ S (length rest) = length rows /\ forall r a, nth_error rows (S r) = Some a -> nth_error rest r = Some (place (S r) a (set a)).
Proof. intros HS. exact (update_everything sort HS place rows set). Qed.
Print Assumptions C73_all_refuted.
(** a column of strings, and columns of numbers and strings *)
Example C73_all_case : exists t t', u_insert new_tab [[1; 2; 3]] = Ok t /\ update_stmt isort copied t None None (Nat.add 10) = Ok t' /\ u_scan_all t' None = Ok [11; 2; 3].
Proof. do 2 eexists. split; [vm_compute; reflexivity|]. split; vm_compute; reflexivity. Qed.
Example C73_mixed_case : let set p := (fst p + 10, snd p + 100) in exists t t', u_insert new_tab [[(1, 1); (2, 2); (3, 3)]] = Ok t /\
  update_stmt isort (fun _ old new => (fst new, snd old)) t None None set = Ok t' /\ u_scan_all t' None = Ok [(11, 101); (12, 2); (13, 3)].
Proof. cbv zeta. do 2 eexists. split; [vm_compute; reflexivity|]. split; vm_compute; reflexivity. Qed.
(** A second UPDATE, of a later row, reads outside the list of ids. *)
Theorem C73_second_refuted : forall sort, exists t t', u_insert new_tab [[0; 1; 2]] = Ok t /\ update_stmt sort copied t (Some (Nat.eqb 0)) None (Nat.add 10) = Ok t' /\ update_stmt sort copied t' (Some (Nat.eqb 2)) None (Nat.add 10) = Err UB
  /\ exists t'', update_stmt sort shared t (Some (Nat.eqb 0)) None (Nat.add 10) = Ok t'' /\ update_stmt sort shared t'' (Some (Nat.eqb 2)) None (Nat.add 10) = Err UB.
Proof. intros sort. do 2 eexists. split; [vm_compute; reflexivity|]. split; [vm_compute; reflexivity|]. split; [vm_compute; reflexivity|]. eexists. split; vm_compute; reflexivity. Qed.
Print Assumptions C73_second_refuted.
