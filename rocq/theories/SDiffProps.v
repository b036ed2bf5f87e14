(** Changes of schemas: the theorems. *)
From Verif Require Import Bytes Outcome ByteOrd OMap SDiffModel SDiffSpec SDiffProofs.

(** C35.  A list of changes that names each column by the name it then has, renames a column before
    changing it otherwise, uses new names for new and renamed columns, and changes types only between
    plain types, gives exactly the columns described, in order, all with different names; the kept
    columns keep their ids.  Missing: the changes below, and ids of added columns. *)
Theorem C35_apply_partial :
  forall base os s, sound base -> s_cols s = base -> tidy base [] os = true ->
    exists d s', build os no_diff = Ok d /\ apply_diff d s = Ok s' /\
      Forall2 same (s_cols s') (describe (map view base) os) /\ s_pk s' = s_pk s /\ NoDup (names (s_cols s')).
Proof. intros base os s H. exact (tidy_apply base H os s). Qed.
Print Assumptions C35_apply_partial.

(** C35.  With at most one column added, no column of id 0 before, and the columns of the primary key
    kept, the new schema has no error, so its names and ids are unique. *)
Theorem C35_valid_partial :
  forall base os s d s', sound base -> s_cols s = base -> tidy base [] os = true ->
    NoDup (ids base) -> n_adds os <= 1 -> (n_adds os = 0 \/ ~ In 0%N (ids base)) ->
    (forall k, In k (s_pk s) -> exists v, In v (describe (map view base) os) /\ n_id v = Some k) ->
    build os no_diff = Ok d -> apply_diff d s = Ok s' -> s_err s' = None.
Proof. intros base os s d s' H. exact (tidy_valid base H os s d s'). Qed.
Print Assumptions C35_valid_partial.

(** C35.  A schema has no error exactly when names and ids are unique and the primary key consists of
    ids of its columns. *)
Theorem C35_error :
  forall cs pk, (forall c, In c cs -> exists x, t_ext (fst c) = Some x) ->
    exists s, make_schema cs pk = Ok s /\ s_cols s = cs /\ s_pk s = pk /\
      (s_err s = None <-> NoDup (names cs) /\ NoDup (ids cs) /\ incl pk (ids cs)) /\
      (forall i, In i (ids cs) -> (i <= s_high s)%N).
Proof. exact make_error. Qed.
Print Assumptions C35_error.

Definition col (n : string) (k : N) (id : N) : column := (Ty k (Some (Ext 0 (str n))), Desc id false []).
Definition INT : N := 14. Definition BIG : N := 15. Definition LIST : N := 101. Definition DEC : N := 23.
Definition two : list column := [col "a" INT 1; col "b" BIG 2].
Definition after (base : list column) (os : list sop) : res schema :=
  do s <- make_schema base []; do d <- build os no_diff; apply_diff d s.

(** C35.  Changing the type of a column after its documentation, its optionality or its type was
    changed dereferences a null pointer: for every column and every type. *)
Theorem C35_second_refuted :
  forall n t doc r t0, t_ext t0 = None ->
    build [SetDoc n doc; SetType n t] no_diff = Err UB /\
    build [SetRequired n r; SetType n t] no_diff = Err UB /\
    build [SetType n t0; SetType n t] no_diff = Err UB.
Proof.
  intros n t doc r t0 H0. repeat split; cbn [build sop_do rbind].
  - unfold update_type, update_doc. cbn. rewrite bcmp_refl. reflexivity.
  - unfold update_type, update_required. cbn. rewrite bcmp_refl. reflexivity.
  - unfold update_type. cbn. rewrite bcmp_refl. cbn. unfold alias. rewrite H0. reflexivity.
Qed.
Print Assumptions C35_second_refuted.

(** C35.  Renaming a column and changing its type to a list, decimal or other extended type reads a
    freed string. *)
Theorem C35_extended_refuted :
  forall n m t x, t_ext t = Some x -> build [Rename n m; SetType m t] no_diff = Err UB.
Proof.
  intros n m t x H. cbn [build sop_do rbind]. unfold update_type, rename_column. cbn. rewrite bcmp_refl. cbn. rewrite H. reflexivity.
Qed.
Print Assumptions C35_extended_refuted.

(** C35.  Changing the type of a column to a decimal without more takes its name away. *)
Theorem C35_name_lost_refuted :
  exists s, after two [SetType (str "b") (Ty DEC (Some (Ext 7 [])))] = Ok s /\
    names (s_cols s) = [str "a"; []] /\ s_err s = None.
Proof. eexists. split; [vm_compute; reflexivity|split; vm_compute; reflexivity]. Qed.
Print Assumptions C35_name_lost_refuted.

(** C35.  A list column made an integer column keeps what described the list. *)
Theorem C35_stale_refuted :
  exists s, after [(Ty LIST (Some (Ext 5 (str "l"))), Desc 1 false [])] [SetType (str "l") (Ty INT None)] = Ok s /\
    map (fun c => (t_kind (fst c), more_of (fst c))) (s_cols s) = [(INT, 5%N)].
Proof. eexists. split; vm_compute; reflexivity. Qed.
Print Assumptions C35_stale_refuted.

(** C35.  Two added columns have the same id, as has one added to a table that counts ids from 0. *)
Theorem C35_ids_refuted :
  (exists s, after two [Add (str "x") (Ty INT None) false []; Add (str "y") (Ty INT None) false []] = Ok s /\
     ids (s_cols s) = [1; 2; 0; 0]%N /\ s_err s = Some DuplicateColumn) /\
  (exists s, after [col "a" INT 0] [Add (str "x") (Ty INT None) false []] = Ok s /\
     ids (s_cols s) = [0; 0]%N /\ s_err s = Some DuplicateColumn).
Proof. split; eexists; (split; [vm_compute; reflexivity|split; vm_compute; reflexivity]). Qed.
Print Assumptions C35_ids_refuted.

(** C35.  Exchanging the names of two columns gives both the same name. *)
Theorem C35_swap_refuted :
  exists s, after two [Rename (str "a") (str "b"); Rename (str "b") (str "a")] = Ok s /\
    names (s_cols s) = [str "a"; str "a"] /\ s_err s = Some DuplicateColumn.
Proof. eexists. split; [vm_compute; reflexivity|split; vm_compute; reflexivity]. Qed.
Print Assumptions C35_swap_refuted.

(** C35.  A change under the old name after a rename undoes the rename. *)
Theorem C35_old_name_refuted :
  exists s, after two [Rename (str "a") (str "c"); SetDoc (str "a") (str "d")] = Ok s /\
    names (s_cols s) = [str "a"; str "b"] /\ s_err s = None.
Proof. eexists. split; [vm_compute; reflexivity|split; vm_compute; reflexivity]. Qed.
Print Assumptions C35_old_name_refuted.

(** C35.  A column made required, then renamed, then documented under its new name has no
    documentation. *)
Theorem C35_lost_refuted :
  exists s, after two [SetRequired (str "a") true; Rename (str "a") (str "c"); SetDoc (str "c") (str "d")] = Ok s /\
    map (fun c => (name_of c, d_doc (snd c))) (s_cols s) = [(str "c", []); (str "b", [])] /\ s_err s = None.
Proof. eexists. split; [vm_compute; reflexivity|split; vm_compute; reflexivity]. Qed.
Print Assumptions C35_lost_refuted.

(** C35.  A column renamed and then deleted under its new name is not deleted; a column added and then
    renamed is not renamed; changes of a column that is not there are accepted. *)
Theorem C35_ignored_refuted :
  (exists s, after two [Rename (str "a") (str "c"); Delete (str "c")] = Ok s /\
     names (s_cols s) = [str "c"; str "b"] /\ s_err s = None) /\
  (exists s, after two [Add (str "x") (Ty INT None) false []; Rename (str "x") (str "y")] = Ok s /\
     names (s_cols s) = [str "a"; str "b"; str "x"] /\ s_err s = None) /\
  (exists s, after two [Rename (str "z") (str "y"); SetType (str "q") (Ty INT None); Delete (str "w")] = Ok s /\
     s_cols s = two /\ s_err s = None).
Proof. repeat split; eexists; (split; [vm_compute; reflexivity|split; vm_compute; reflexivity]). Qed.
Print Assumptions C35_ignored_refuted.

(** C75.  On a schema without error, looking up columns that are there, by name or id and any number
    of times, finds each. *)
Theorem C75_lookup_partial :
  forall s, (forall c, In c (s_cols s) -> exists x, t_ext (fst c) = Some x) -> s_err s = None ->
    forall ks, (forall k, In k ks -> exists c, In c (s_cols s) /\ matches k c) ->
    exists cs, lookups s ks = Ok (map Some cs) /\ Forall2 (fun k c => In c (s_cols s) /\ matches k c) ks cs.
Proof. exact lookups_present. Qed.
Print Assumptions C75_lookup_partial.

(** C75.  After one lookup of a column that is not there, every later lookup on the schema fails,
    whatever it asks for. *)
Theorem C75_sticky_refuted :
  forall s k ks, (forall c, In c (s_cols s) -> exists x, t_ext (fst c) = Some x) ->
    (forall c, In c (s_cols s) -> ~ matches k c) -> lookups s (k :: ks) = Ok (map (fun _ => None) (k :: ks)).
Proof. exact missing_poisons. Qed.
Print Assumptions C75_sticky_refuted.

(** The hypotheses are met by a list of changes of every sort. *)
Definition several : list column := [col "a" INT 1; col "b" BIG 2; (Ty LIST (Some (Ext 5 (str "l"))), Desc 3 true (str "old")); col "z" INT 4].
Definition changes : list sop :=
  [Rename (str "a") (str "first"); SetRequired (str "first") true; SetType (str "first") (Ty BIG None); SetType (str "first") (Ty INT None);
   SetType (str "b") (Ty INT None); SetDoc (str "b") (str "second"); Rename (str "b") (str "other");
   SetDoc (str "l") (str "new"); Add (str "x") (Ty DEC (Some (Ext 7 []))) true (str "added"); Delete (str "z")].
Example C35_changes_tidy : tidy several [] changes = true.
Proof. vm_compute. reflexivity. Qed.
Example C35_changes_sound : sound several /\ NoDup (ids several) /\ n_adds changes <= 1 /\ ~ In 0%N (ids several).
Proof.
  split; [split|split; [|split]].
  - intros c Hc. cbn in Hc. repeat (destruct Hc as [<-|Hc]; [eexists; reflexivity|]). destruct Hc.
  - cbn. repeat constructor; cbn; intuition discriminate.
  - cbn. repeat constructor; cbn; intuition discriminate.
  - cbn. lia.
  - cbn. intuition discriminate.
Qed.
Example C35_changes_result : exists s, after several changes = Ok s /\ s_err s = None /\
  map (fun c => (name_of c, t_kind (fst c), more_of (fst c), d_id (snd c), d_req (snd c), d_doc (snd c))) (s_cols s) =
  [(str "first", INT, 0%N, 1%N, true, []); (str "other", INT, 0%N, 2%N, false, str "second");
   (str "l", LIST, 5%N, 3%N, true, str "new"); (str "x", DEC, 7%N, 0%N, true, str "added")].
Proof. eexists. split; [vm_compute; reflexivity|split; vm_compute; reflexivity]. Qed.
Example C75_several : exists s, make_schema several [1%N] = Ok s /\ s_err s = None /\
  lookups s [ById 3; ByName (str "a")] = Ok [nth_error several 2; nth_error several 0] /\
  lookups s [ByName (str "nope"); ByName (str "a")] = Ok [None; None].
Proof. eexists. split; [vm_compute; reflexivity|]. repeat split; vm_compute; reflexivity. Qed.
