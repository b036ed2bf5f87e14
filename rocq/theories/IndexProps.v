(** Indexes: lookups (C25), following the data (C26), creating and dropping (C27). *)
From Verif Require Import Bytes Outcome ByteOrd LValModel LValSpec IndexModel IndexSpec IndexProofs.
From Coq Require Import Sorting.Permutation Sorting.Sorted ZArith.
Local Open Scope nat_scope.

(** The keys for which the comparison is a consistent order: one integer type, strings, and integers of mixed types
    below half of their ranges. *)
Theorem C25_one_type : forall t, basic t = true -> ordered (of_type t).
Proof. exact of_type_ordered. Qed.
Print Assumptions C25_one_type.

Theorem C25_strings : ordered is_string.
Proof. exact strings_ordered. Qed.
Print Assumptions C25_strings.

Theorem C25_mixed_types : ordered tame.
Proof. exact tame_ordered. Qed.
Print Assumptions C25_mixed_types.

(** C25: an index lookup returns exactly the rows that a scan with the comparison returns, in key order; with a limit,
    the first ones; the table operator returns the same as the collection operator.  Proved for histories with keys
    from an ordered set in which deletions name the oldest row of their key (see C26).  Missing: keys without a
    consistent order (NULL refuted below). *)
Theorem C25_lookup_partial : forall P c v cs, ordered P -> P v -> legal_all P oldest [] cs ->
  exists idx, apply_all cs = Ok idx /\
    Permutation (search c v (-1) idx) (filter (fun e => holds_for c v (fst e)) (map row_entry (live cs))) /\
    StronglySorted (fun a b => vltb (fst b) (fst a) = false) (search c v (-1) idx) /\
    forall limit, search c v limit idx = limited limit (search c v (-1) idx) /\
                  search_table c v limit idx = search c v limit idx.
Proof. exact lookup_exact. Qed.
Print Assumptions C25_lookup_partial.

Definition int (z : Z) : lval := VNum TI64 z.

Example C25_lookup_example :
  let cs := [Insert 1 (int 5); Insert 2 (int 3); Insert 3 (int 5); Delete 1 (int 5); Insert 4 (int 7); Insert 5 (int (-2))] in
  legal_all (of_type TI64) oldest [] cs /\
  match apply_all cs with
  | Ok idx => map snd (search CEq (int 5) (-1) idx) = [3%N] /\
              map snd (search CNe (int 5) (-1) idx) = [5%N; 2%N; 4%N] /\
              map snd (search CGte (int 5) 1 idx) = [3%N]
  | Err _ => False
  end.
Proof.
  split; [|vm_compute; auto]. cbn. unfold of_type, int.
  repeat split; try (eexists; reflexivity); try (left; reflexivity); try tauto;
    intros H; repeat (destruct H as [H|H]; [discriminate H|]); exact H.
Qed.

(** A row whose key is NULL is found when looking for any value. *)
Theorem C25_null_refuted : exists cs idx v,
  apply_all cs = Ok idx /\ search CEq v (-1) idx <> [] /\
  filter (fun e => holds_for CEq v (fst e)) (map row_entry (live cs)) = [].
Proof.
  exists [Insert 1 VNull], [(VNull, 1%N)], (int 3). split; [reflexivity|]. split; [vm_compute; discriminate|reflexivity].
Qed.
Print Assumptions C25_null_refuted.

(** C26: after any history of inserts and deletes the index holds exactly the live rows.  Proved when each deleted row
    is the oldest with its key; missing: the others (refuted below). *)
Theorem C26_follows_partial : forall P cs, ordered P -> legal_all P oldest [] cs ->
  exists idx, apply_all cs = Ok idx /\ Permutation idx (map row_entry (live cs)).
Proof. exact follow_exact. Qed.
Print Assumptions C26_follows_partial.

Example C26_follows_example :
  let cs := [Insert 1 (int 5); Insert 2 (int 5); Delete 1 (int 5)] in
  legal_all (of_type TI64) oldest [] cs /\ apply_all cs = Ok [(int 5, 2%N)] /\ live cs = [(2%N, int 5)].
Proof.
  split; [|split; reflexivity]. cbn. unfold of_type, int.
  repeat split; try (eexists; reflexivity); try (left; reflexivity); try tauto;
    intros H; repeat (destruct H as [H|H]; [discriminate H|]); exact H.
Qed.

(** Every history: the number of entries for each key is the number of live rows with it, and no removal of an absent
    entry (undefined behaviour) happens. *)
Theorem C26_counts : forall P cs, ordered P -> legal_all P (fun _ _ => True) [] cs ->
  exists idx, apply_all cs = Ok idx /\ length idx = length (live cs) /\
    forall v, P v -> length (filter (fun e => veqb (fst e) v) idx) = length (filter (fun r => veqb (snd r) v) (live cs)).
Proof. exact follow_counts. Qed.
Print Assumptions C26_counts.

(** Deleting one of two rows with equal keys can remove the other row's entry: the index then lists a deleted row and
    has lost a live one. *)
Theorem C26_wrong_entry_refuted : exists cs idx,
  legal_all (of_type TI64) (fun _ _ => True) [] cs /\ apply_all cs = Ok idx /\
  live cs = [(1%N, int 5)] /\ idx = [(int 5, 2%N)].
Proof.
  exists [Insert 1 (int 5); Insert 2 (int 5); Delete 2 (int 5)], [(int 5, 2%N)].
  split; [|split; [reflexivity|split; reflexivity]]. cbn. unfold of_type, int.
  repeat split; try (eexists; reflexivity); try (right; left; reflexivity); try tauto.
  intros [H|H]; [discriminate H|exact H].
Qed.
Print Assumptions C26_wrong_entry_refuted.

(** Deleting a row that has no entry (for example one whose key was NULL when the index was created) is undefined
    behaviour. *)
Theorem C26_absent_refuted : exists k, apply [] (Delete 1 k) = Err UB.
Proof. exists (int 5). reflexivity. Qed.
Print Assumptions C26_absent_refuted.

(** C27, names: for every history, looking up a name gives the live index with the name, and nothing when there is
    none. *)
Theorem C27_names : forall rs, exists e, serve_all rs = Ok e /\ forall n,
  match matching_name e n with
  | Some p => exists i, In i (lives (spec_all rs)) /\ lname i = n /\ points_to e p i
  | None => forall i, In i (lives (spec_all rs)) -> lname i <> n
  end.
Proof. exact by_name. Qed.
Print Assumptions C27_names.

(** C27, ids: the id of a live index leads to it, and a new index gets an id that no index had before.  Missing: ids
    of dropped indexes (refuted below). *)
Theorem C27_ids_partial : forall rs, exists e, serve_all rs = Ok e /\
  (forall i, In i (lives (spec_all rs)) -> exists p, matching_id e (lid i) = Ok p /\ points_to e p i) /\
  (forall n ks e' i, create e n ks = (e', Some i) ->
     i = created (spec_all rs) /\ forall j, In j (lives (spec_all rs)) -> lid j <> i).
Proof. exact by_id. Qed.
Print Assumptions C27_ids_partial.

(** C27, keys: what is found is a live index with these keys, never a dropped one. *)
Theorem C27_keys_sound : forall rs, exists e, serve_all rs = Ok e /\ forall ks p, matching_keys e ks = Some p ->
  exists i, In i (lives (spec_all rs)) /\ lkeys i = ks /\ points_to e p i.
Proof. exact by_keys_sound. Qed.
Print Assumptions C27_keys_sound.

(** Every live index is found by its keys when no two indexes on the same keys are alive together.  Missing: two
    indexes on the same keys (refuted below). *)
Theorem C27_keys_found_partial : forall rs, distinct_keys {| lives := []; created := 0 |} rs ->
  exists e, serve_all rs = Ok e /\ forall i, In i (lives (spec_all rs)) ->
    exists p, matching_keys e (lkeys i) = Some p /\ points_to e p i.
Proof. exact by_keys_complete. Qed.
Print Assumptions C27_keys_found_partial.

Definition a_name := str "a".
Definition b_name := str "b".
Definition k_key := str "k".
Definition m_key := str "m".

Example C27_example :
  let rs := [Create a_name [k_key]; Create b_name [m_key]; Create a_name [m_key]; Drop a_name; Create a_name [k_key]] in
  distinct_keys {| lives := []; created := 0 |}
    [Create a_name [k_key]; Create b_name [m_key]; Drop a_name; Create a_name [k_key]] /\
  map lid (lives (spec_all rs)) = [1; 2] /\
  match serve_all rs with
  | Ok e => matching_name e a_name = Some 2 /\ matching_keys e [k_key] = Some 2 /\ matching_id e 1 = Ok 1
  | Err _ => False
  end.
Proof.
  split; [|vm_compute; auto]. vm_compute. repeat split; intros H;
    repeat (destruct H as [H|H]; [discriminate H|]); exact H.
Qed.

(** The id of a dropped index leads to freed memory. *)
Theorem C27_dropped_id_refuted : exists rs e p,
  serve_all rs = Ok e /\ lives (spec_all rs) = [] /\ matching_id e 0 = Ok p /\ deref e p = Err UB.
Proof.
  eexists [Create a_name [k_key]; Drop a_name], _, 0. split; [vm_compute; reflexivity|]. repeat split; reflexivity.
Qed.
Print Assumptions C27_dropped_id_refuted.

(** An id that was never given out is undefined behaviour. *)
Theorem C27_unknown_id_refuted : matching_id empty_engine 0 = Err UB.
Proof. reflexivity. Qed.
Print Assumptions C27_unknown_id_refuted.

(** After dropping one of two indexes on the same key the other is not found by its keys any more. *)
Theorem C27_same_keys_refuted : exists rs e i,
  serve_all rs = Ok e /\ lives (spec_all rs) = [i] /\ matching_keys e (lkeys i) = None.
Proof.
  eexists [Create a_name [k_key]; Create b_name [k_key]; Drop b_name], _, _.
  split; [vm_compute; reflexivity|]. split; reflexivity.
Qed.
Print Assumptions C27_same_keys_refuted.
