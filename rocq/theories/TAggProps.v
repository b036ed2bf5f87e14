(** Sorting and grouping of tables (C80, C81). *)
From Coq Require Import ZArith Lia Bool Permutation Sorted.
From Verif Require Import Bytes Outcome ByteOrd IndexModel QueryModel LValModel GroupModel TblModel TblSpec TblProofs.
From Verif Require Import TAggModel TAggSpec TAggProofs TAggGroup.
From Verif Require LValSpec.
Local Open Scope nat_scope.

(** ** C80: sorting *)
(** Sorting by columns given by their positions returns the rows of the table, none changed, in the order of the first
    key in which they differ and in its direction.  Missing: the comparison is not one [std::sort] allows (refuted
    below), so that the theorem is about a sort which nevertheless leaves every row before those the comparison says it
    precedes; and keys given by name, NULLs and timestamps (refuted below). *)
Theorem C80_position_partial : forall sort ks c,
  table c -> no_nulls c -> keys_ok (cols c) ks = true -> positions ks = true ->
  (forall m, matrix c = Ok m -> Permutation (sort m) m /\ StronglySorted (fun a b => row_before ks a b = Ok true) (sort m)) ->
  exists out, table_sort sort c = Ok out /\ cols out = cols c /\ Permutation (rws out) (rws c) /\ in_order (row_order (cols c) ks) (rws out).
Proof. intros sort ks c T N K PS P. exact (sort_positions sort ks c T N K P PS). Qed.
Print Assumptions C80_position_partial.

(** The order asked for is not the order returned: keys given by name, the only ones a query makes, are compared the
    other way around.  Any table in which two rows differ comes back in another order. *)
Theorem C80_reversed_refuted : forall sort ks c x y,
  table c -> no_nulls c -> keys_ok (cols c) ks = true -> names ks = true ->
  (forall m, matrix c = Ok m -> Permutation (sort m) m /\ StronglySorted (fun a b => row_before ks a b = Ok true) (sort m)) ->
  In x (rws c) -> In y (rws c) -> row_order (cols c) ks x y = Some Lt ->
  exists out, table_sort sort c = Ok out /\ Permutation (rws out) (rws c) /\ ~ in_order (row_order (cols c) ks) (rws out).
Proof. intros sort ks c x y T N K PS P. exact (sort_reversed sort ks c T N K P x y PS). Qed.
Print Assumptions C80_reversed_refuted.

(** The comparison is not a strict weak order on any table with a row: a row precedes itself, and what [std::sort] does
    is undefined. *)
Theorem C80_contract_refuted : forall ks c m,
  table c -> no_nulls c -> keys_ok (cols c) ks = true -> positions ks = true \/ names ks = true -> rws c <> [] -> matrix c = Ok m ->
  ~ strict_weak (fun a b => match row_before ks a b with Ok r => r | Err _ => false end) m.
Proof.
  intros ks c m T N K PN NE M [IR _]. rewrite (matrix_ok c T N) in M. injection M as <-.
  destruct (rws c) as [|a l] eqn:E; [contradiction|]. specialize (IR (ar (cols c) a) (or_introl eq_refl)).
  rewrite (not_strict c ks a T N K PN) in IR; [discriminate|]. rewrite E. left. reflexivity.
Qed.
Print Assumptions C80_contract_refuted.

Definition name := str "name". Definition age := str "age". Definition tag := str "tag".
Definition num (z : Z) : option lval := Some (VNum TI32 z).
Definition txt (s : string) : option lval := Some (VStr (str s)).
Definition people : chunk :=
  {| cols := [(name, TStr); (age, TI32)]; rws := [[txt "ann"; num 30]; [txt "bob"; num 20]; [txt "cid"; num 41]; [txt "dan"; num 30]] |}.

(** One sort there is: insertion. *)
Fixpoint insert (lt : list (list byte * lval) -> list (list byte * lval) -> bool) r l :=
  match l with [] => [r] | x :: l' => if lt r x then r :: l else x :: insert lt r l' end.
Definition isort (ks : list skey) (m : list (list (list byte * lval))) : list (list (list byte * lval)) :=
  fold_right (insert (fun a b => match row_before ks a b with Ok r => r | Err _ => false end)) [] m.

Lemma people_table : table people /\ no_nulls people.
Proof.
  split; [split|].
  - repeat constructor; cbn; intuition discriminate.
  - repeat constructor; cbn; auto; unfold LValSpec.fits; cbn; lia.
  - repeat constructor; discriminate.
Qed.
Ltac same_rows := match goal with |- Permutation ?a ?b =>
  let a' := eval vm_compute in a in let b' := eval vm_compute in b in change (Permutation a' b') end.
Definition ks1 : list skey := [ByPos 1 false; ByPos 0 true].
Lemma isort_permutes ks m : Permutation (isort ks m) m.
Proof.
  induction m as [|r m IH]; cbn [isort fold_right]; [constructor|]. fold (isort ks m).
  assert (I : forall lt r l, Permutation (insert lt r l) (r :: l)).
  { intros lt r0. induction l as [|x l IHl]; cbn [insert]; [reflexivity|]. destruct (lt r0 x); [reflexivity|].
    rewrite IHl. apply perm_swap. }
  rewrite I, IH. reflexivity.
Qed.

(** Sorting four people by age, oldest first, and then by name. *)
Example C80_example_hyps : keys_ok (cols people) ks1 = true /\ positions ks1 = true /\
  (forall m, matrix people = Ok m -> Permutation (isort ks1 m) m /\ StronglySorted (fun a b => row_before ks1 a b = Ok true) (isort ks1 m)).
Proof.
  split; [reflexivity|split; [reflexivity|]]. intros m M. split; [apply isort_permutes|].
  vm_compute in M. injection M as <-. match goal with |- StronglySorted _ ?l => let l' := eval vm_compute in l in change l with l' end.
  repeat constructor.
Qed.
Example C80_example : exists out, table_sort (isort ks1) people = Ok out /\
  rws out = [[txt "cid"; num 41]; [txt "ann"; num 30]; [txt "dan"; num 30]; [txt "bob"; num 20]].
Proof. eexists. split; vm_compute; reflexivity. Qed.

Definition ks2 : list skey := [ByName age true].
Example C80_reversed_example_hyps : keys_ok (cols people) ks2 = true /\ names ks2 = true /\
  (forall m, matrix people = Ok m -> Permutation (isort ks2 m) m /\ StronglySorted (fun a b => row_before ks2 a b = Ok true) (isort ks2 m)) /\
  row_order (cols people) ks2 [txt "bob"; num 20] [txt "cid"; num 41] = Some Lt.
Proof.
  split; [reflexivity|split; [reflexivity|split; [|reflexivity]]]. intros m M. split; [apply isort_permutes|].
  vm_compute in M. injection M as <-. match goal with |- StronglySorted _ ?l => let l' := eval vm_compute in l in change l with l' end.
  repeat constructor.
Qed.
(** "ORDER BY age ASC" returns the oldest first. *)
Example C80_reversed_example : exists out, table_sort (isort ks2) people = Ok out /\
  rws out = [[txt "cid"; num 41]; [txt "ann"; num 30]; [txt "dan"; num 30]; [txt "bob"; num 20]].
Proof. eexists. split; vm_compute; reflexivity. Qed.

(** A NULL comes back as a zero, whatever the sort. *)
Definition gap : chunk := {| cols := [(name, TStr); (age, TI32)]; rws := [[txt "ann"; None]] |}.
Theorem C80_null_refuted : exists c, table c /\
  (forall sort out, (forall m, Permutation (sort m) m) -> table_sort sort c = Ok out -> ~ Permutation (rws out) (rws c)) /\
  (exists out, table_sort (fun m => m) c = Ok out).
Proof.
  exists gap. split; [|split].
  - split.
    + repeat constructor; cbn; intuition discriminate.
    + repeat constructor; cbn; auto; unfold LValSpec.fits; cbn; lia.
  - intros sort out P E PO. unfold table_sort in E. destruct (matrix gap) as [m|] eqn:M; [|discriminate]. vm_compute in M. injection M as <-.
    cbn [rbind] in E. match type of E with context [sort ?m] => specialize (P m); destruct (sort m) as [|r [|]] eqn:SM end.
    + apply Permutation_nil in P. discriminate.
    + apply Permutation_length_1 in P. subst r. vm_compute in E. injection E as <-.
      apply Permutation_length_1 in PO. discriminate.
    + apply Permutation_length in P. discriminate.
  - eexists. vm_compute. reflexivity.
Qed.
Print Assumptions C80_null_refuted.

(** A table with a column of timestamps cannot be sorted. *)
Theorem C80_timestamp_refuted : exists c, NoDup (map fst (cols c)) /\ length (rws c) = 1 /\ no_nulls c /\ forall sort, table_sort sort c = Err Throw.
Proof.
  exists {| cols := [(name, TStr); (str "at", TSec)]; rws := [[txt "ann"; Some (VNum TSec 5)]] |}.
  split; [repeat constructor; cbn; intuition discriminate|]. split; [reflexivity|]. split; [repeat constructor; discriminate|].
  intros sort. reflexivity.
Qed.
Print Assumptions C80_timestamp_refuted.

(** ** C81: grouping *)
(** Grouping returns one row for every different combination of the keys, in the order in which they first appear: the
    keys, and each aggregate computed over exactly the rows with these keys.  [heads] are the first rows of the groups.
    Missing: tables with NULLs; several aggregates of one kind, an aggregate with the name of a key, timestamps and the
    empty table (refuted below); averages. *)
Theorem C81_groups_partial : forall c keys aggs,
  table c -> no_nulls c -> rws c <> [] ->
  (forall f, In f (map snd keys) -> lookup beqb f (cols c) <> None) ->
  NoDup (map (fun x => agg_key (snd x)) aggs) -> (forall a, In a (map snd aggs) -> ~ In (agg_key a) (map fst keys)) ->
  Forall (agg_ok c (map snd keys)) (map snd aggs) ->
  exists out heads, table_group keys aggs c = Ok out /\
    map fst (cols out) = map snd keys ++ map agg_key (map snd aggs) /\
    map (fun x => Some (snd x)) (cols out) = map (fun f => lookup beqb f (cols c)) (map snd keys) ++ map (agg_type (cols c)) (map snd aggs) /\
    incl heads (rws c) /\ ForallOrdPairs (fun a b => same_key (cols c) (map snd keys) a b = false) heads /\
    (forall r, In r (rws c) -> exists h, In h heads /\ same_key (cols c) (map snd keys) h r = true) /\
    Forall2 (fun h row => exists ks vs, row = map Some ks ++ map Some vs /\ map (fun v => Some (Some v)) ks = key_values (cols c) (map snd keys) h /\
               Forall2 (fun a v => means (cols c) a (filter (same_key (cols c) (map snd keys) h) (rws c)) v) (map snd aggs) vs) heads (rws out).
Proof. intros c keys aggs T N NE KF ND DJ OK. exact (group_ok c keys T N KF aggs NE ND DJ OK). Qed.
Print Assumptions C81_groups_partial.

(** The keys of the groups are those the two rows share. *)
Theorem C81_same_key : forall cs fs a b, same_key cs fs a b = true <-> key_values cs fs a = key_values cs fs b.
Proof. intros cs fs a b. exact (same_key_eq cs fs a b). Qed.
Print Assumptions C81_same_key.

Definition by_age : list (list byte * list byte) := [(str "years", age)].
Definition all_aggs : list (list byte * agg) := [(str "how_many", Count); (str "total", Sum age); (str "last", Max name)].
Example C81_example_hyps : rws people <> [] /\ (forall f, In f (map snd by_age) -> lookup beqb f (cols people) <> None) /\
  NoDup (map (fun x => agg_key (snd x)) all_aggs) /\ (forall a, In a (map snd all_aggs) -> ~ In (agg_key a) (map fst by_age)) /\
  Forall (agg_ok people (map snd by_age)) (map snd all_aggs).
Proof.
  split; [discriminate|]. split; [intros f [<-|[]]; discriminate|]. split; [repeat constructor; cbn; intuition discriminate|].
  split; [intros a [<-|[<-|[<-|[]]]]; cbn; intuition discriminate|].
  constructor; [|constructor; [|constructor; [|constructor]]]; cbn [agg_ok].
  - reflexivity.
  - exists TI32. split; [reflexivity|]. split; [reflexivity|]. intros r I. cbn [rws people] in I.
    repeat (destruct I as [<-|I]; [match goal with |- LValSpec.no_overflow _ ?l => let l' := eval vm_compute in l in change l with l' end;
      intros n; unfold LValSpec.fits; destruct n as [|[|[|n]]]; cbn; lia|]). destruct I.
  - discriminate.
Qed.
Example C81_example : exists out, table_group by_age all_aggs people = Ok out /\
  cols out = [(age, TI32); (str "count", TU64); (str "sum", TI32); (str "max", TStr)] /\
  rws out = [[num 30; Some (VNum TU64 2); num 60; txt "dan"]; [num 20; Some (VNum TU64 1); num 20; txt "bob"]; [num 41; Some (VNum TU64 1); num 41; txt "cid"]].
Proof. eexists. split; [vm_compute; reflexivity|]. split; reflexivity. Qed.

(** The names asked for are not those of the result. *)
Theorem C81_name_refuted : exists c keys aggs out, table c /\ no_nulls c /\ table_group keys aggs c = Ok out /\
  map fst (cols out) <> map fst keys ++ map fst aggs.
Proof.
  exists people, by_age, all_aggs. eexists. split; [apply people_table|]. split; [apply people_table|]. split; [vm_compute; reflexivity|discriminate].
Qed.
Print Assumptions C81_name_refuted.

(** A missing key is grouped with zero. *)
Definition missing : chunk := {| cols := [(name, TStr); (age, TI32)]; rws := [[txt "ann"; None]; [txt "bob"; num 0]] |}.
Theorem C81_null_refuted : exists c out a b, table c /\ rws c = [a; b] /\ same_key (cols c) [age] a b = false /\
  table_group by_age [(str "how_many", Count)] c = Ok out /\ rws out = [[num 0; Some (VNum TU64 2)]].
Proof.
  exists missing. eexists. exists [txt "ann"; None], [txt "bob"; num 0]. split; [|split; [reflexivity|split; [reflexivity|split; vm_compute; reflexivity]]].
  split.
  - repeat constructor; cbn; intuition discriminate.
  - repeat constructor; cbn; auto; unfold LValSpec.fits; cbn; lia.
Qed.
Print Assumptions C81_null_refuted.

(** Two aggregates of one kind: the second overwrites the first, and the row is too short for the columns. *)
Theorem C81_twice_refuted : exists c keys aggs, table c /\ no_nulls c /\ Forall (agg_ok c (map snd keys)) (map snd aggs) /\ NoDup (map fst aggs) /\
  table_group keys aggs c = Err UB.
Proof.
  exists people, [(name, name)], [(str "first", Min name); (str "youngest", Min age)]. split; [apply people_table|]. split; [apply people_table|].
  split; [repeat constructor; discriminate|]. split; [repeat constructor; cbn; intuition discriminate|]. vm_compute. reflexivity.
Qed.
Print Assumptions C81_twice_refuted.

(** A key with the name of an aggregate: the key is overwritten. *)
Theorem C81_key_name_refuted : exists c keys aggs, table c /\ no_nulls c /\ Forall (agg_ok c (map snd keys)) (map snd aggs) /\
  NoDup (map fst keys ++ map fst aggs) /\ table_group keys aggs c = Err UB.
Proof.
  exists people, [(str "max", name)], [(str "oldest", Max age)]. split; [apply people_table|]. split; [apply people_table|].
  split; [repeat constructor; discriminate|]. split; [repeat constructor; cbn; intuition discriminate|]. vm_compute. reflexivity.
Qed.
Print Assumptions C81_key_name_refuted.

(** A column of timestamps, not a key and in no aggregate, keeps the table from being grouped. *)
Theorem C81_timestamp_refuted : exists c, NoDup (map fst (cols c)) /\ no_nulls c /\ lookup beqb age (cols c) = Some TI32 /\
  table_group by_age [(str "how_many", Count)] c = Err Throw.
Proof.
  exists {| cols := [(age, TI32); (str "at", TSec)]; rws := [[num 3; Some (VNum TSec 5)]] |}.
  split; [repeat constructor; cbn; intuition discriminate|]. split; [repeat constructor; discriminate|]. split; reflexivity.
Qed.
Print Assumptions C81_timestamp_refuted.

(** Counting the rows of an empty table gives no row. *)
Theorem C81_empty_refuted : exists c, table c /\ rws c = [] /\ exists out, table_group [] [(str "how_many", Count)] c = Ok out /\ rws out = [].
Proof.
  exists {| cols := [(age, TI32)]; rws := [] |}. split; [split; repeat constructor; cbn; intuition discriminate|]. split; [reflexivity|].
  eexists. split; vm_compute; reflexivity.
Qed.
Print Assumptions C81_empty_refuted.
