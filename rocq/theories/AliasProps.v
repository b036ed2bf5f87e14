(** C77: reading a table does not change it, and what was read is independent of it *)
From Verif Require Import Bytes Outcome AliasModel AliasSpec AliasProofs.
Local Open Scope nat_scope.

(** Scans of columns, each into a flat vector whose memory is not that of a column, return the rows asked for,
    with their updates, and leave all columns as they were, however many segments they have.
    Missing: reading with one vector again, and writing to what was read; see below. *)
Theorem C77_fresh_partial A (m : mem A) (l : list (column A * option (list nat) * vec)) :
  (forall c sel v, In (c, sel, v) l -> well c /\ inside (rows_of m c) sel /\ forall c' sel' v', In (c', sel', v') l -> fresh v' c) ->
  exists m', scan_each m l = Ok (m', map (fun p => chosen (rows_of m (fst (fst p))) (snd (fst p))) l) /\ forall c sel v, In (c, sel, v) l -> rows_of m' c = rows_of m c.
Proof. exact (scan_each_ok l m). Qed.
Print Assumptions C77_fresh_partial.
(** Nothing is written outside the vector. *)
Theorem C77_outside_partial A (m : mem A) c sel v : well c -> fresh v c -> inside (rows_of m c) sel ->
  exists m' v', scan_chunk m c sel v = Ok (m', v', chosen (rows_of m c) sel) /\ forall b p, b <> v_buf v -> m' b p = m b p.
Proof. exact (chunk_ok m c sel v). Qed.
Print Assumptions C77_outside_partial.

(** two segments, of three and two rows, the second row updated; the vector is in buffer 9 *)
Definition m0 : mem nat := fun b p => b * 10 + p.
Definition c0 := {| c_str := false; c_segs := [{| sg_start := 4; sg_count := 3; sg_buf := 1 |}; {| sg_start := 7; sg_count := 2; sg_buf := 2 |}]; c_upds := [(1, 77)] |}.
Definition v0 := flat_vec 9 0.
Example C77_case : well c0 /\ fresh v0 c0 /\ rows_of m0 c0 = [10; 77; 12; 20; 21] /\ inside (rows_of m0 c0) (Some [1; 3]) /\
  exists m' v', scan_chunk m0 c0 (Some [1; 3]) v0 = Ok (m', v', [77; 20]).
Proof.
  split; [cbn; auto|]. split; [split; [reflexivity|intros s [<-|[<-|[]]]; cbn; discriminate]|]. split; [reflexivity|]. split; [intros p [<-|[<-|[]]]; cbn; lia|]. do 2 eexists. vm_compute. reflexivity.
Qed.

(** Reading all row groups with one vector, as [collection_t::scan] does, returns the rows of a column of
    numbers, but each row group is then overwritten with the rows of the one after it. *)
Theorem C77_reuse_refuted A (m : mem A) gs v : plain gs -> v_idx v = None -> (forall s, In s gs -> sg_buf s <> v_buf v) ->
  exists m', scan_groups m (map (fun s => (numbers s, None)) gs) v = Ok (m', map (seg_rows m) gs) /\ map (seg_rows m') gs = shifted (map (seg_rows m) gs).
Proof. intros P VI F. destruct (shift_ok gs m v P VI F) as (m' & H1 & H2 & _). exists m'. auto. Qed.
Print Assumptions C77_reuse_refuted.
Example C77_reuse_case : let gs := [{| sg_start := 0; sg_count := 3; sg_buf := 1 |}; {| sg_start := 3; sg_count := 3; sg_buf := 2 |}; {| sg_start := 6; sg_count := 1; sg_buf := 3 |}] in
  plain gs /\ (forall s, In s gs -> sg_buf s <> v_buf v0) /\ exists m' m'', scan_groups m0 (map (fun s => (numbers s, None)) gs) v0 = Ok (m', [[10; 11; 12]; [20; 21; 22]; [30]]) /\
  scan_groups m' (map (fun s => (numbers s, None)) gs) v0 = Ok (m'', [[20; 21; 22]; [30; 21; 22]; [30]]).
Proof.
  cbv zeta. split; [cbn; repeat split; try lia; repeat match goal with H : _ \/ _ |- _ => destruct H as [<-|H] end; cbn; try lia; contradiction|]. split; [intros s [<-|[<-|[<-|[]]]]; cbn; discriminate|].
  do 2 eexists. split; vm_compute; reflexivity.
Qed.
(** In the same loop, a row group of strings some of which are deleted leaves its positions behind, and the
    rows of the next group are read at them. *)
Theorem C77_strings_refuted A (m : mem A) s1 s2 sel v : fresh v (@strings A s1) -> sg_buf s2 <> v_buf v -> 0 < sg_count s1 -> (forall p, In p sel -> p < sg_count s1) -> 0 < sg_count s2 <= length sel ->
  exists m', scan_groups m [(strings s1, Some sel); (strings s2, None)] v =
    Ok (m', [chosen (seg_rows m s1) (Some sel); map (fun p => if p <? sg_count s2 then m (sg_buf s2) p else m (sg_buf s1) p) (firstn (sg_count s2) sel)]).
Proof. exact (strings_after m s1 s2 sel v). Qed.
Print Assumptions C77_strings_refuted.
(** And a row group of numbers some of which are deleted makes the scan of the next group miss its updates. *)
Theorem C77_updates_refuted A (m : mem A) s1 s2 us sel v : fresh v (@numbers A s1) -> sg_buf s2 <> v_buf v -> sg_buf s2 <> sg_buf s1 -> 0 < sg_count s1 -> (forall p, In p sel -> p < sg_count s1) -> 0 < sg_count s2 ->
  exists m', scan_groups m [(numbers s1, Some sel); ({| c_str := false; c_segs := [s2]; c_upds := us |}, None)] v = Ok (m', [chosen (seg_rows m s1) (Some sel); seg_rows m s2]).
Proof. exact (updates_after m s1 s2 us sel v). Qed.
Print Assumptions C77_updates_refuted.
(** the first row of three deleted; then a group of one row, which should be read as 20 and, updated, as 99 *)
Example C77_deleted_case : let s1 := {| sg_start := 0; sg_count := 3; sg_buf := 1 |} in let s2 := {| sg_start := 3; sg_count := 1; sg_buf := 2 |} in
  fresh v0 (@strings nat s1) /\ fresh v0 (@numbers nat s1) /\ exists m' m'', scan_groups m0 [(strings s1, Some [1; 2]); (strings s2, None)] v0 = Ok (m', [[11; 12]; [11]]) /\
  scan_groups m0 [(numbers s1, Some [1; 2]); ({| c_str := false; c_segs := [s2]; c_upds := [(0, 99)] |}, None)] v0 = Ok (m'', [[11; 12]; [20]]).
Proof.
  cbv zeta. split; [split; [reflexivity|intros s [<-|[]]; cbn; discriminate]|]. split; [split; [reflexivity|intros s [<-|[]]; cbn; discriminate]|]. do 2 eexists. split; vm_compute; reflexivity.
Qed.
(** Writing a value to what was read changes the table. *)
Theorem C77_result_refuted A (m : mem A) s v i a : fresh v (@numbers A s) -> i < sg_count s ->
  exists m' v', scan_chunk m (numbers s) None v = Ok (m', v', seg_rows m s) /\ seg_rows m' s = seg_rows m s /\
  seg_rows (set_value m' v' i a) s = set_nth (seg_rows m s) (i, a).
Proof. exact (write_result m s v i a). Qed.
Print Assumptions C77_result_refuted.
