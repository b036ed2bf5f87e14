(** Grouping (C21), sorting (C22) and aggregates (C62) of documents. *)
From Verif Require Import Bytes Outcome ByteOrd IndexModel QueryModel QuerySpec GroupModel GroupSpec GroupProofs.
From Verif Require TapeModel.
From Coq Require Import Sorting.Permutation Sorting.Sorted.
Local Open Scope Z_scope.

Definition int (z : Z) : dval := DInt TapeModel.I64 z.
Definition uns (z : Z) : dval := DInt TapeModel.U64 z.
Definition D (i : N) (fs : list (list byte * dval)) : doc := {| did := i; fields := fs |}.
Definition dept := str "dept".
Definition pay := str "pay".
Definition staff : list doc :=
  [ D 1 [(dept, DStr (str "it")); (pay, int 30)];
    D 2 [(dept, DStr (str "hr")); (pay, int 20)];
    D 3 [(pay, int 99)];
    D 4 [(dept, DStr (str "it")); (pay, int (-7))];
    D 5 [(dept, DStr (str "hr"))];
    D 6 [(dept, DNull); (pay, DInt TapeModel.I8 4)] ].

(** C21: the groups are, in the order of their first documents, the documents with the same values of the keys, in the
    order of the input; each carries the values of its keys; a document without one of the keys is in none.  Proved when
    the keys are not nested and each key has integers of one signedness.  Missing: the cases refuted below. *)
Theorem C21_groups_partial : forall ks ds, plain ks ds -> let hs := filter (has_keys ks) ds in
  map snd (group ks ds) = map (fun d => filter (same_keys ks d) hs) (leaders ks hs) /\
  map fst (group ks ds) = map (fun d => map (fun k => match field d k with Some v => widen v | None => DNull end) ks) (leaders ks hs).
Proof. exact group_ok. Qed.
Print Assumptions C21_groups_partial.

(** Every document that has the keys is in exactly one group. *)
Theorem C21_partition_partial : forall ks ds, plain ks ds ->
  Permutation (concat (map snd (group ks ds))) (filter (has_keys ks) ds).
Proof. exact group_partition. Qed.
Print Assumptions C21_partition_partial.

Example C21_groups_example :
  forallb (fun a => forallb (fun b => groupable (field a dept) (field b dept)) staff) staff = true /\
  map (fun g => (fst g, map did (snd g))) (group [dept] staff) =
    [([DStr (str "it")], [1; 4]%N); ([DStr (str "hr")], [2; 5]%N); ([DNull], [6%N])] /\
  map (fun g => map did (snd g)) (group [dept; pay] staff) = [[1%N]; [2%N]; [4%N]; [6%N]].
Proof. repeat split; vm_compute; reflexivity. Qed.

(** The number 1 kept as a signed and as an unsigned integer is in two groups. *)
Theorem C21_sign_refuted : exists ks ds, (forall a b, In a ds -> In b ds -> same_keys ks a b = true) /\ length (group ks ds) = 2%nat.
Proof.
  exists [pay], [D 1 [(pay, int 1)]; D 2 [(pay, uns 1)]]. split; [|reflexivity].
  intros a b [<-|[<-|[]]] [<-|[<-|[]]]; reflexivity.
Qed.
Print Assumptions C21_sign_refuted.

(** A document with a nested value in the key is in no group. *)
Theorem C21_nested_refuted : exists ks ds, filter (has_keys ks) ds = ds /\ ds <> [] /\ group ks ds = [].
Proof. exists [pay], [D 1 [(pay, DNest)]]. repeat split; discriminate. Qed.
Print Assumptions C21_nested_refuted.

(** C22 (documents): the comparison of the sort is the lexicographic order of the keys, and a strict weak order, as
    [std::sort] requires; so whatever [std::sort] returns is a permutation of the input in that order.  Proved for keys
    whose values are comparable with each other (or NULL or missing).  Missing: the case refuted below, and tables. *)
Theorem C22_sorted_partial : forall ks ds, sortable ks ds -> exists lt,
  (forall a b, In a ds -> In b ds -> before ks a b = Ok (lt a b)) /\ strict_weak lt ds /\
  forall out, Permutation ds out -> StronglySorted (fun a b => lt b a = false) out -> StronglySorted (fun a b => lex ks a b <> Gt) out.
Proof.
  intros ks ds S. exists (lexb ks). destruct (sort_comparison ks ds S) as [B W].
  split; [exact B|]. split; [exact W|]. intros out _ O. exact (sorted_lex ks out O).
Qed.
Print Assumptions C22_sorted_partial.

Example C22_sorted_example :
  let ks := [(dept, true); (pay, false)] in
  forallb (fun a => forallb (fun b => orderable (field a dept) (field b dept) && orderable (field a pay) (field b pay)) staff) staff = true /\
  map (fun a => map (fun b => before ks a b) [nth 1 staff (D 0 []); nth 4 staff (D 0 [])]) (firstn 3 staff) =
    [[Ok false; Ok false]; [Ok false; Ok false]; [Ok false; Ok false]] /\
  before ks (nth 4 staff (D 0 [])) (nth 1 staff (D 0 [])) = Ok true.
Proof. repeat split; vm_compute; reflexivity. Qed.

(** Strings and numbers in one key: the comparison is not a strict weak order, the sort is undefined. *)
Theorem C22_mixed_refuted : exists ks ds lt, (forall a b, In a ds -> In b ds -> before ks a b = Ok (lt a b)) /\ ~ strict_weak lt ds.
Proof.
  pose (a := D 1 [(pay, int 1)]). pose (b := D 2 [(pay, DStr (str "x"))]). pose (c := D 3 [(pay, int 2)]).
  exists [(pay, true)], [a; b; c], (fun x y => match before [(pay, true)] x y with Ok r => r | Err _ => false end).
  split.
  - intros x y [<-|[<-|[<-|[]]]] [<-|[<-|[<-|[]]]]; vm_compute; reflexivity.
  - intros (_ & _ & T). destruct (T a b c) as [F _]; cbn; auto; try (vm_compute; reflexivity). vm_compute in F. discriminate.
Qed.
Print Assumptions C22_mixed_refuted.

(** A number that does not fit the type of the other ends the sort with an exception. *)
Theorem C22_range_refuted : exists ks a b, before ks a b = Err Throw.
Proof. exists [(pay, true)], (D 1 [(pay, int 1)]), (D 2 [(pay, uns (2 ^ 63))]). vm_compute. reflexivity. Qed.
Print Assumptions C22_range_refuted.

(** C62: the counts of the groups are the sizes of the groups and add up to the number of documents that have the keys. *)
Definition counted (r : res (option dval)) : Z := match r with Ok (Some (DInt _ z)) => z | _ => -1 end.
Theorem C62_count_partial : forall ks ds, plain ks ds ->
  let counts := map (fun g => counted (agg_count (snd g))) (group ks ds) in
  counts = map (fun d => Z.of_nat (length (filter (same_keys ks d) (filter (has_keys ks) ds)))) (leaders ks (filter (has_keys ks) ds)) /\
  total counts = Z.of_nat (length (filter (has_keys ks) ds)).
Proof.
  intros ks ds P counts. destruct (group_ok ks ds P) as [E _]. cbn zeta in E. split.
  - unfold counts. rewrite <- (map_map snd (fun l => counted (agg_count l))), E, map_map. reflexivity.
  - rewrite <- (Permutation_length (group_partition ks ds P)). unfold counts. clear. induction (group ks ds) as [|g gs IH]; [reflexivity|].
    cbn [map total fold_right concat]. change (fold_right Z.add 0) with total. rewrite IH, app_length. cbn. lia.
Qed.
Print Assumptions C62_count_partial.
Example C62_count_example : map (fun g => counted (agg_count (snd g))) (group [dept] staff) = [2; 2; 1].
Proof. reflexivity. Qed.

(** C62: the sum is the sum of the numbers of the field, whatever documents lack it.  Proved for a field of integers of
    one signedness, with at least one number, whose partial sums fit 64 bits.  Missing: the cases refuted below. *)
Theorem C62_sum_partial : forall sgn k ds, number_field sgn k ds = true -> numbers k ds <> [] ->
  sums_fit (if sgn then TapeModel.I64 else TapeModel.U64) 0 (numbers k ds) = true ->
  agg_sum k ds = Ok (Some (DInt (if sgn then TapeModel.I64 else TapeModel.U64) (total (numbers k ds)))).
Proof. intros sgn k ds N E S. exact (agg_sum_ok sgn k ds N S E). Qed.
Print Assumptions C62_sum_partial.

Example C62_sum_example :
  number_field true pay staff = true /\ numbers pay staff = [30; 20; 99; -7; 4] /\
  sums_fit TapeModel.I64 0 (numbers pay staff) = true /\ agg_sum pay staff = Ok (Some (int 146)).
Proof. repeat split; vm_compute; reflexivity. Qed.

(** C62: min is the least of the values there are. *)
Theorem C62_min_partial : forall k ds, sortable [(k, true)] ds -> values k ds <> [] ->
  exists v, agg_min k ds = Ok (Some v) /\ In v (values k ds) /\
    forall x, In x (values k ds) -> order v x = Some Lt \/ order v x = Some Eq.
Proof. exact agg_min_values. Qed.
Print Assumptions C62_min_partial.

(** C62: max is the greatest of the values when every document has one. *)
Theorem C62_max_partial : forall k ds, sortable [(k, true)] ds -> ds <> [] ->
  (forall d, In d ds -> exists v, field d k = Some v /\ v <> DNull) ->
  exists v, agg_max k ds = Ok (Some v) /\ In v (values k ds) /\
    forall x, In x (values k ds) -> order x v = Some Lt \/ order x v = Some Eq.
Proof. exact agg_max_values. Qed.
Print Assumptions C62_max_partial.

Example C62_min_max_example :
  forallb (fun a => forallb (fun b => orderable (field a pay) (field b pay)) staff) staff = true /\
  agg_min pay staff = Ok (Some (int (-7))) /\ agg_max pay (firstn 4 staff) = Ok (Some (int 99)) /\ length (values pay staff) = 5%nat.
Proof. repeat split; vm_compute; reflexivity. Qed.

(** A document without the field hides the greatest value, and so does one with NULL. *)
Theorem C62_max_missing_refuted : exists k ds ds', values k ds <> [] /\ agg_max k ds = Ok None /\
  values k ds' <> [] /\ agg_max k ds' = Ok (Some DNull).
Proof.
  exists pay, [D 1 [(pay, int 5)]; D 2 []], [D 1 [(pay, int 5)]; D 2 [(pay, DNull)]]. repeat split; discriminate || reflexivity.
Qed.
Print Assumptions C62_max_missing_refuted.

(** NULL after a number, or a string among numbers, ends the process: the getter of the value is [noexcept] and
    throws. *)
Theorem C62_sum_null_refuted : exists k ds ds', numbers k ds = [5] /\ agg_sum k ds = Err Throw /\
  numbers k ds' = [5] /\ agg_sum k ds' = Err Throw.
Proof. exists pay, [D 1 [(pay, int 5)]; D 2 [(pay, DNull)]], [D 1 [(pay, int 5)]; D 2 [(pay, DStr (str "x"))]]. repeat split. Qed.
Print Assumptions C62_sum_null_refuted.

(** Summing a field that is missing or NULL in every document is undefined, whatever the documents. *)
Theorem C62_sum_missing_refuted : forall k ds, (forall d, In d ds -> field d k = None \/ field d k = Some DNull) -> agg_sum k ds = Err UB.
Proof. intros k ds H. unfold agg_sum. rewrite (sum_loop_missing k ds H). reflexivity. Qed.
Print Assumptions C62_sum_missing_refuted.

(** A sum that does not fit into 64 bits is undefined when the numbers are signed, and wraps around when they are not. *)
Theorem C62_sum_range_refuted : exists k ds ds', numbers k ds = [2 ^ 63 - 1; 1] /\ agg_sum k ds = Err UB /\
  numbers k ds' = [2 ^ 64 - 1; 1] /\ agg_sum k ds' = Ok (Some (DInt TapeModel.U64 0)).
Proof.
  exists pay, [D 1 [(pay, DInt TapeModel.I64 (2 ^ 63 - 1))]; D 2 [(pay, DInt TapeModel.I64 1)]],
    [D 1 [(pay, DInt TapeModel.U64 (2 ^ 64 - 1))]; D 2 [(pay, DInt TapeModel.U64 1)]].
  repeat split; vm_compute; reflexivity.
Qed.
Print Assumptions C62_sum_range_refuted.

(** Three booleans end the process: two of them add up to an integer, which is then read as a boolean. *)
Theorem C62_sum_bool_refuted : exists k ds, (forall d, In d ds -> field d k = Some (DBool true)) /\ agg_sum k ds = Err Throw.
Proof.
  exists pay, [D 1 [(pay, DBool true)]; D 2 [(pay, DBool true)]; D 3 [(pay, DBool true)]]. split; [|reflexivity].
  intros d [<-|[<-|[<-|[]]]]; reflexivity.
Qed.
Print Assumptions C62_sum_bool_refuted.

(** The average divides by the number of documents, also those without the field. *)
Theorem C62_avg_missing_refuted : exists k ds, numbers k ds = [6] /\ agg_avg k ds = Ok (6, 3).
Proof. exists pay, [D 1 [(pay, int 6)]; D 2 []; D 3 []]. split; reflexivity. Qed.
Print Assumptions C62_avg_missing_refuted.

(** The average is the sum over the number of numbers when every document has a number. *)
Theorem C62_avg_partial : forall sgn k ds, number_field sgn k ds = true -> ds <> [] -> (forall d, In d ds -> field d k <> None) ->
  sums_fit (if sgn then TapeModel.I64 else TapeModel.U64) 0 (numbers k ds) = true ->
  agg_avg k ds = Ok (total (numbers k ds), Z.of_nat (length (numbers k ds))).
Proof. exact agg_avg_ok. Qed.
Print Assumptions C62_avg_partial.
Example C62_avg_example : agg_avg pay (firstn 4 staff) = Ok (142, 4).
Proof. reflexivity. Qed.
