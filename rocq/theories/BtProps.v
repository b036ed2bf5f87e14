(** Properties C78 and C32: the B+-tree that holds the documents and the indices on disk. *)
From Coq Require Import List ZArith Lia Arith Permutation.
From Verif Require Import Bytes Outcome BtModel BtSpec BtProofs4 BtProofs5 BtProofs6 BtProofs7.
Import ListNotations.

(** A tree answers like a dictionary.  Any number of calls in any order, on trees of any height; nodes have room
    for [M] children or indices ([M] is 128 in the code).  Missing: more than one item per index, removing what
    is not there and a limit of 0 (see [C78_lock_refuted], [C78_split_refuted]), and capacities below 12
    ([C78_small_refuted]). *)
Theorem C78_partial :
  forall M ops, 12 <= M -> careful_all [] ops ->
  exists rs t, run M bt0 ops = Ok (rs, t) /\ answers [] ops rs.
Proof.
  intros M ops HM Hc. destruct (run_ok M HM ops bt0 [] (inv_bt0 M) Hc) as (rs & t & E & Ha & _). eauto.
Qed.
Print Assumptions C78_partial.

(** The same over restarts: the inner nodes are built anew from the row of leaves, and the answers stay right.
    Missing, beside the above: a restart of an emptied tree. *)
Theorem C78_restart_partial :
  forall M ss, 12 <= M -> careful_sessions [] ss ->
  exists rss, sessions M bt0 ss = Ok rss /\ answers_sessions [] ss rss.
Proof. exact (fun M ss HM Hc => sessions_ok M HM ss bt0 [] (inv_bt0 M) Hc). Qed.
Print Assumptions C78_restart_partial.

(** With more than [M] entries, removing an index that is not there returns and leaves a leaf locked: the next access
    to that leaf waits for ever (b_plus_tree.cpp:480-484, 623-627).  This holds in every such tree, for every absent
    index. *)
Theorem C78_lock_refuted :
  forall M ops rs t k x, 12 <= M -> careful_all [] ops -> run M bt0 ops = Ok (rs, t) ->
  M < length (fold_left after ops []) -> ~ In k (map fst (fold_left after ops [])) ->
  run M t [RemoveIndex k; Get k] = Err Diverge /\ run M t [Remove k x; Get k] = Err Diverge.
Proof. exact (fun M ops rs t k x HM => lock_kept M HM ops rs t k x). Qed.
Print Assumptions C78_lock_refuted.

Definition adds (a n : nat) : list op := map (fun i => Append (Z.of_nat i) (str "a")) (seq a n).
Definition dels (a n : nat) : list op := map (fun i => RemoveIndex (Z.of_nat i)) (seq a n).

(** Two items under one index: when the root, a leaf, is full and split, an item whose index is the least of the right
    half is put into the left one (b_plus_tree.cpp:327 compares with [<], 379 with [>=]) and is not found. *)
Theorem C78_split_refuted :
  exists rs t, run 12 bt0 (adds 0 12 ++ [Append 6 (str "b"); Get 6]) = Ok (rs, t) /\
  last rs (OB false) = OI [str "a"] /\ nth 12 rs (OB false) = OB true.
Proof. eexists _, _. split; [vm_compute; reflexivity | ]. split; reflexivity. Qed.
Print Assumptions C78_split_refuted.

(** With room for 11, an inner node that is not the root may have two children; when it loses one it is
    taken for the root (b_plus_tree.cpp:546-552). *)
Theorem C78_small_refuted :
  careful_all [] (adds 0 80 ++ dels 0 31) /\ run 11 bt0 (adds 0 80 ++ dels 0 31) = Err UB.
Proof.
  split; [apply careful_check; vm_compute; reflexivity | vm_compute; reflexivity].
Qed.
Print Assumptions C78_small_refuted.

(** A history that meets the hypotheses: 100 indices in two directions, removals that balance and merge leaves and
    inner nodes, scans; here with its answers. *)
Definition history : list op :=
  adds 0 90 ++ map (fun i => Append (Z.of_nat (160 - i)) (str "z")) (seq 0 10) ++ dels 4 30 ++
  [Get 40; Get 5; Size; Ascending (fun e => Z.even (fst e)) 1 41 4; Descending (fun _ => true) 2 152 3].
Example C78_case :
  careful_all [] history /\
  exists rs t, run 12 bt0 history = Ok (rs, t) /\ levels t = [[2]; [5; 6]] /\
  skipn 130 rs = [OI [str "a"]; OI []; OZ 70%Z;
    OE [(2%Z, str "a"); (34%Z, str "a"); (36%Z, str "a"); (38%Z, str "a")];
    OE [(152%Z, str "z"); (151%Z, str "z"); (89%Z, str "a")]].
Proof.
  split; [apply careful_check; vm_compute; reflexivity | ].
  eexists _, _. split; [vm_compute; reflexivity | ]. split; vm_compute; reflexivity.
Qed.

(** two sessions *)
Example C78_restart_case :
  careful_sessions [] [adds 0 30 ++ dels 3 10; dels 0 3 ++ adds 30 20; [FullScan]] /\
  exists rss, sessions 12 bt0 [adds 0 30 ++ dels 3 10; dels 0 3 ++ adds 30 20; [FullScan]] = Ok rss /\
  match last rss [] with [OE l] => map fst l = map Z.of_nat (seq 13 37) | _ => False end.
Proof.
  split.
  - cbn [careful_sessions].
    do 3 (split; [apply careful_check; vm_compute; reflexivity | split; [vm_compute; discriminate | ]]). exact Logic.I.
  - eexists. split; [vm_compute; reflexivity | reflexivity].
Qed.

(** a tree of the default capacity in which an absent index is removed *)
Example C78_lock_case :
  careful_all [] (adds 0 129) /\ 128 < length (fold_left after (adds 0 129) []) /\
  ~ In 500%Z (map fst (fold_left after (adds 0 129) [])).
Proof.
  split; [apply careful_check; vm_compute; reflexivity | ]. split; [vm_compute; lia | ].
  exact (proj1 (careful_check [Append 500 []] (fold_left after (adds 0 129) []) ltac:(vm_compute; reflexivity))).
Qed.

(** No two leaves in use have the same file, whatever the capacity and whatever calls were made (also those that
    C78 leaves out).  Missing: a restart after an id has become free. *)
Theorem C32_partial :
  forall M cs t, no_gap M bt0 cs -> calls M bt0 cs = Ok t -> NoDup (file_ids t).
Proof. exact calls_nodup. Qed.
Print Assumptions C32_partial.

(** The ids that have become free are not restored (b_plus_tree.cpp:808: "will be used to restore missing_ids_"): with
    leaves 0 and 2 left, the next new leaf gets id 2 too, and the two write to the same file. *)
Theorem C32_refuted :
  exists t, calls 128 bt0 (map Op (adds 0 200 ++ dels 64 33) ++ Restart :: map Op (adds 200 60)) = Ok t /\
  file_ids t = [0; 2; 2].
Proof. eexists. split; [vm_compute; reflexivity | reflexivity]. Qed.
Print Assumptions C32_refuted.

(** Ids are used again: a leaf is merged away, a later split takes its id; a restart before that. *)
Example C32_case :
  let cs := map Op (adds 0 14) ++ Restart :: map Op (adds 14 6 ++ dels 6 4 ++ adds 20 7) in
  no_gap 12 bt0 cs /\ exists t, calls 12 bt0 cs = Ok t /\ file_ids t = [0; 2; 1] /\ missed t = [].
Proof.
  split.
  - vm_compute. repeat split; discriminate.
  - eexists. split; [vm_compute; reflexivity | ]. split; reflexivity.
Qed.
