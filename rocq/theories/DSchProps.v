(** C100: the schema reported for a schemaless collection is that of the documents in it. *)
From Verif Require Import Bytes Outcome ByteOrd TrieModel CSchemaModel CSchemaSpec DSchModel DSchSpec DSchProofs.
Local Open Scope nat_scope.

(** Whatever statements on whatever collections are under way together: if documents are only inserted, with new ids, and deleted
    by statements that scan the collection, no delete is finished while the log has another delete to write, and no change of the
    schema throws, then a collection with no statement under way, whose fields only ever had values of one kind each, has exactly
    the fields and kinds of its documents in its schema. *)
Theorem C100_partial : forall es w c,
  run start es = Ok w -> plain start es -> idle w c ->
  one_kind (inserted es c) -> (2 * N.of_nat (fields_in (inserted es c)) < 2 ^ 64)%N ->
  forall f k, (exists t, In (f, t) (get_schema w c) /\ ty_kind t = k) <-> (exists d, In d (docs w c) /\ has (snd d) f k).
Proof. exact main_exact. Qed.
Print Assumptions C100_partial.

(** With fields of many kinds, all that the schema has is in the documents. *)
Theorem C100_sound_partial : forall es w c,
  run start es = Ok w -> plain start es -> idle w c ->
  one_kind_prefixes (inserted es c) -> (2 * N.of_nat (fields_in (inserted es c)) < 2 ^ 64)%N ->
  forall f t, In (f, t) (get_schema w c) -> exists d, In d (docs w c) /\ has (snd d) f (ty_kind t).
Proof. exact main_sound. Qed.
Print Assumptions C100_sound_partial.

(** The listing of a field has each kind of value there is in the documents, once. *)
Theorem C100_versions_partial : forall es w c,
  run start es = Ok w -> plain start es -> idle w c ->
  one_kind_prefixes (inserted es c) -> (2 * N.of_nat (fields_in (inserted es c)) < 2 ^ 64)%N ->
  forall f, (exists d k, In d (docs w c) /\ has (snd d) f k) ->
  exists l, find_field_versions (schemas w c) f = Ok l /\ NoDup (map ty_kind l) /\
    forall k, In k (map ty_kind l) <-> exists d, In d (docs w c) /\ has (snd d) f k.
Proof. exact main_lists. Qed.
Print Assumptions C100_versions_partial.

Definition INT := Ty 1 0.
Definition STR := Ty 2 0.
Definition person (i : N) : N * list (list byte * ty) := (i, [(str "_id", STR); (str "name", STR)]).
Definition point (i : N) : N * list (list byte * ty) := (i, [(str "_id", STR); (str "pos", INT)]).
Definition all : N * list (list byte * ty) -> bool := fun _ => true.
Definition alone (c : N) (q : stmt) : list event := [Exec c q; Finish; Logged].

(** Two deletes under way together, on two collections: the types removed from the first are taken from the schema of no
    collection, and the first collection keeps the field "name" with no document left. *)
Theorem C100_two_deletes_refuted :
  exists es w, run start es = Ok w /\ (forall c, idle w c) /\
    docs w 1%N = [] /\ In (str "name", STR) (get_schema w 1%N).
Proof.
  exists (alone 1 (Insert [person 1]) ++ alone 2 (Insert [point 1]) ++
          [Exec 1%N (Delete all); Exec 2%N (Delete all); Finish; Finish; Logged; Logged]).
  eexists. split; [vm_compute; reflexivity|]. split; [intros c; split; cbn; tauto|]. split; [reflexivity|].
  vm_compute. tauto.
Qed.
Print Assumptions C100_two_deletes_refuted.

(** The same, the second delete of few documents of one collection: its documents still have a field the schema lost. *)
Theorem C100_lost_refuted :
  exists es w, run start es = Ok w /\ (forall c, idle w c) /\
    (exists d, In d (docs w 2%N) /\ has (snd d) (str "name") 2) /\ (forall t, ~ In (str "name", t) (get_schema w 2%N)).
Proof.
  exists (alone 1 (Insert [person 1]) ++ alone 2 (Insert [person 1]) ++
          [Exec 2%N (Delete (fun _ => false)); Exec 1%N (Delete all); Finish; Finish; Logged; Logged]).
  eexists. split; [vm_compute; reflexivity|]. split; [intros c; split; cbn; tauto|]. split.
  - exists (person 1). split; [left; reflexivity|]. exists STR. split; [right; left; reflexivity|reflexivity].
  - intros t H. vm_compute in H. exact H.
Qed.
Print Assumptions C100_lost_refuted.

(** An insert from a query, an update, a delete that uses an index on disk, and an insert that replaces a document leave the
    schema as it is or count a document twice. *)
Theorem C100_select_refuted :
  exists w, run start (alone 1 (InsertFrom [person 1])) = Ok w /\ docs w 1%N = [person 1] /\ get_schema w 1%N = [].
Proof. eexists. split; [vm_compute; reflexivity|split; vm_compute; reflexivity]. Qed.
Print Assumptions C100_select_refuted.
Theorem C100_update_refuted :
  exists w, run start (alone 1 (Insert [person 1]) ++ alone 1 (Update (fun _ d => (str "age", INT) :: d))) = Ok w /\
    docs w 1%N = [(1%N, (str "age", INT) :: snd (person 1))] /\ (forall t, ~ In (str "age", t) (get_schema w 1%N)).
Proof.
  eexists. split; [vm_compute; reflexivity|]. split; [reflexivity|]. intros t H. vm_compute in H.
  repeat (destruct H as [H|H]; [discriminate H|]). exact H.
Qed.
Print Assumptions C100_update_refuted.
Theorem C100_index_refuted :
  exists w, run start (alone 1 (Insert [person 1]) ++ alone 1 (DeleteByIndex all)) = Ok w /\
    docs w 1%N = [] /\ In (str "name", STR) (get_schema w 1%N).
Proof. eexists. split; [vm_compute; reflexivity|]. split; [reflexivity|]. vm_compute. tauto. Qed.
Print Assumptions C100_index_refuted.
Theorem C100_replace_refuted :
  exists w, run start (alone 1 (Insert [person 1]) ++ alone 1 (Insert [person 1]) ++ alone 1 (Delete all)) = Ok w /\
    docs w 1%N = [] /\ In (str "name", STR) (get_schema w 1%N).
Proof. eexists. split; [vm_compute; reflexivity|]. split; [reflexivity|]. vm_compute. tauto. Qed.
Print Assumptions C100_replace_refuted.
(** A document with the fields "_id" and "x": the change of the schema throws. *)
Theorem C100_throw_refuted :
  run start (alone 1 (Insert [(1%N, [(str "_id", STR); (str "x", INT)])])) = Err Throw.
Proof. vm_compute. reflexivity. Qed.
Print Assumptions C100_throw_refuted.

(** The hypotheses are met: inserts and deletes on two collections that overlap. *)
Definition sample : list event :=
  [Exec 1%N (Insert [person 1; person 2; point 3]); Exec 2%N (Insert [point 1]); Finish; Exec 1%N (Delete (fun d => (fst d =? 3)%N));
   Finish; Logged; Finish; Exec 2%N (Insert [person 7]); Logged; Logged; Finish; Exec 2%N (Delete (fun d => (fst d =? 1)%N)); Finish; Logged; Logged].
Example C100_sample : exists w, run start sample = Ok w /\ idle w 1%N /\ idle w 2%N /\
  docs w 1%N = [person 1; person 2] /\ get_schema w 1%N = [(str "name", STR); (str "_id", STR)] /\
  get_schema w 2%N = [(str "name", STR); (str "_id", STR)].
Proof.
  eexists. split; [vm_compute; reflexivity|]. repeat split; cbn; try tauto; vm_compute; reflexivity.
Qed.
Example C100_sample_plain : plain start sample.
Proof.
  unfold sample. repeat (split; [cbn; repeat split; try exact I; try (repeat constructor; cbn; intuition discriminate);
    try (intros; intuition (subst; cbn in *; intuition discriminate))|intros w' E; vm_compute in E; injection E as <-]). exact I.
Qed.
Example C100_sample_kinds : one_kind (inserted sample 1) /\ one_kind (inserted sample 2).
Proof.
  split; intros d e f k l Hd He [t [Ht <-]] [u [Hu <-]]; cbn in Hd, He;
    repeat (destruct Hd as [<-|Hd]; [|]); try contradiction; repeat (destruct He as [<-|He]; [|]); try contradiction;
    cbn in Ht, Hu; repeat (destruct Ht as [Ht|Ht]; [injection Ht as <- <-|]); try contradiction;
    repeat (destruct Hu as [Hu|Hu]; [try discriminate Hu; injection Hu as <-|]); try contradiction; reflexivity.
Qed.
