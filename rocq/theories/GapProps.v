(** Properties C31 (space in a segment file) and C55 (flush and load of a segment file). *)
From Verif Require Import Bytes Outcome GapModel GapSpec GapProofs GapFile.
From Coq Require Import ZifyBool ZifyNat ZifyN.
Local Open Scope N_scope.

(** For every sequence of allocations of positive size and releases, starting from an empty file of any
    size: no step goes wrong, the ranges handed out and the free ranges together cover every position of
    the space exactly once, two ranges in use never meet, and all lie inside the space.
    (An allocation that does not fit is the assertion failure of find_gap; it hands out nothing.  What
    is missing is the release build, see [C31_exhausted_refuted].) *)
Theorem C31_ranges_never_overlap_partial :
  forall lo hi ops, lo < hi -> Forall positive ops ->
  exists t, grun {| held := []; gaps := gt_init lo hi |} ops = Ok t /\
    partition lo hi (held t ++ gaps t) /\
    (forall i j x y, i <> j -> nth_error (held t) i = Some x -> nth_error (held t) j = Some y -> disjoint x y) /\
    (forall x, In x (held t) -> lo <= fst x /\ fst x + snd x <= hi).
Proof. exact grun_partition. Qed.
Print Assumptions C31_ranges_never_overlap_partial.

(** Freed space is merged without loss: an allocation is refused exactly when no run of that many
    consecutive free positions exists, ... *)
Theorem C31_refused_only_without_space :
  forall lo hi ops t n, lo < hi -> Forall positive ops ->
  grun {| held := []; gaps := gt_init lo hi |} ops = Ok t -> 0 < n ->
  (find_gap n (gaps t) = None <-> ~ exists o, forall b, o <= b < o + n -> is_free lo hi (held t) b).
Proof. exact alloc_fails. Qed.
Print Assumptions C31_refused_only_without_space.

(** ... and after everything was given back the tracker is as it was at the start. *)
Theorem C31_all_freed :
  forall lo hi ops t, lo < hi -> Forall positive ops ->
  grun {| held := []; gaps := gt_init lo hi |} ops = Ok t -> held t = [] -> gaps t = gt_init lo hi.
Proof. exact all_freed. Qed.
Print Assumptions C31_all_freed.

(** The release build does the same as long as every allocation finds space, ... *)
Theorem C31_release_build_partial :
  forall s ops, always_fits s ops -> grun_ndebug s ops = grun s ops.
Proof. intros s ops. apply ndebug_same. Qed.
Print Assumptions C31_release_build_partial.

(** ... but when space runs out it hands out the same range twice. *)
Theorem C31_exhausted_refuted :
  exists t, grun_ndebug {| held := []; gaps := gt_init 0 10 |} [Alloc 8; Alloc 4; Alloc 4] = Ok t /\
    exists x, nth_error (held t) 0 = Some x /\ nth_error (held t) 1 = Some x /\ 0 < snd x.
Proof. eexists. split; [vm_compute; reflexivity|]. exists (INVALID_SIZE, 4). vm_compute. auto. Qed.
Print Assumptions C31_exhausted_refuted.

Definition demo_ops := [Alloc 4; Alloc 5; Alloc 6; Free 1; Alloc 2; Free 0; Free 1].
Example C31_demo : exists t, grun {| held := []; gaps := gt_init 16 100 |} demo_ops = Ok t /\
  held t = [(25, 6)] /\ gaps t = [(16, 9); (31, 69)].
Proof. eexists. split; [vm_compute; reflexivity|]. vm_compute. auto. Qed.
Example C31_demo_positive : Forall positive demo_ops.
Proof. repeat constructor. Qed.

(** Flushing a segment file and loading it again gives the same blocks in the same order; the store in
    memory also keeps its contents, and what was loaded is again a store in good order.  Missing: the
    stores with a hole in the file and a block that is not in memory, see the refutation. *)
Theorem C55_flush_load_partial :
  forall lo hi st, store_ok lo hi st -> all_loaded st \/ no_hole st ->
  exists st', flush st = Ok st' /\ store_ok lo hi (lazy_load hi (file st')) /\
    map (content (bytes (file st'))) (segs (lazy_load hi (file st'))) = map (content (bytes (file st))) (segs st) /\
    map (content (bytes (file st'))) (segs st') = map (content (bytes (file st))) (segs st).
Proof. exact flush_load. Qed.
Print Assumptions C55_flush_load_partial.

(** A store with three blocks in memory, a hole below the second, and one block to be moved. *)
Definition demo_store : sstore :=
  {| file := {| dir := []; bytes := [] |};
     segs := [{| soff := 2; ssize := 2; sblock := Some (str "ab"); smod := true |};
              {| soff := 7; ssize := 3; sblock := Some (str "cde"); smod := true |};
              {| soff := 10; ssize := 1; sblock := Some (str "f"); smod := true |}];
     sgaps := [(4, 3); (11, 89)] |}.
Example demo_flush : exists st', flush demo_store = Ok st' /\ dir (file st') = [(2, 2); (4, 3); (7, 1)] /\
  skipn 2 (bytes (file st')) = str "abcdef".
Proof. eexists. split; [vm_compute; reflexivity|]. vm_compute. auto. Qed.
Example demo_store_ok : store_ok 2 100 demo_store /\ all_loaded demo_store.
Proof.
  unfold store_ok. repeat match goal with |- _ /\ _ => split end.
  - intros b. unfold demo_store. cbn [map place segs sgaps app cov]. unfold covers, place. cbn [fst snd soff ssize].
    iflia.
  - vm_compute. repeat split.
  - repeat constructor; reflexivity.
  - repeat constructor; reflexivity.
  - discriminate.
  - reflexivity.
  - repeat constructor; cbn; intros; try (destruct H; discriminate); injection H as <-; reflexivity.
  - repeat constructor; discriminate.
Qed.

(** Load a file, remove the first block, flush: the second block was never in memory, its recorded place
    moves down but its bytes do not, and the file is cut after the new place. *)
Theorem C55_unloaded_block_lost_refuted :
  exists st st1, store_ok 2 100 (lazy_load 100 (file st)) /\
    remove_segment 0 (lazy_load 100 (file st)) = Ok st1 /\ store_ok 2 100 st1 /\
    exists st2, flush st1 = Ok st2 /\
      map (content (bytes (file st1))) (segs st1) = [str "cdef"] /\
      map (content (bytes (file st2))) (segs st2) = [str "abcd"].
Proof.
  exists {| file := {| dir := [(2, 2); (4, 4)]; bytes := str "##abcdef" |}; segs := []; sgaps := [] |}.
  eexists. split; [|split; [vm_compute; reflexivity|split]].
  - unfold store_ok. repeat match goal with |- _ /\ _ => split end;
      try solve [vm_compute; repeat split; discriminate || reflexivity]; try (repeat constructor; reflexivity).
    + intros b. cbn. unfold covers, place. cbn [fst snd soff ssize]. iflia.
    + repeat constructor; cbn; intros; try discriminate.
  - unfold store_ok. repeat match goal with |- _ /\ _ => split end;
      try solve [vm_compute; repeat split; discriminate || reflexivity]; try (repeat constructor; reflexivity).
    + intros b. cbn. unfold covers, place. cbn [fst snd soff ssize]. iflia.
    + repeat constructor; cbn; intros; try discriminate.
  - eexists. split; [vm_compute; reflexivity|]. split; reflexivity.
Qed.
Print Assumptions C55_unloaded_block_lost_refuted.
