(** Conditions, filters and joins over tables (C20, C69). *)
From Coq Require Import ZArith Lia Bool.
From Verif Require Import Bytes Outcome ByteOrd IndexModel QueryModel QueryProofs LValModel GroupModel TblModel TblSpec TblProofs.
From Verif Require TapeModel LValSpec.
Local Open Scope nat_scope.

(** C69: a condition on a row of a table is true exactly when it holds.  Proved for conditions of comparisons with
    parameters, where the row has a value in every column compared and the parameters are of the kind of their columns.
    Missing: the cases refuted below. *)
Theorem C69_condition_partial : forall unset bytes e ps c i row right,
  table c -> nth_error (rws c) i = Some row -> regular1 e ps (cols c) row = true ->
  exists b, cond1 unset bytes e ps c i = Ok b /\ (b = true <-> holds_of e (given ps) (content (cols c) row) right).
Proof. intros unset bytes e ps c i row right T E R. exact (cond1_ok unset bytes e ps c i row right T E R). Qed.
Print Assumptions C69_condition_partial.

(** C69: filtering returns the rows for which the condition holds, in their order, up to the limit, unchanged. *)
Theorem C69_filter_partial : forall unset bytes e ps limit c f right,
  table c -> no_nulls c ->
  (forall row, In row (rws c) -> regular1 e ps (cols c) row = true /\ (f row = true <-> holds_of e (given ps) (content (cols c) row) right)) ->
  length (at_most limit (filter f (rws c))) <= CAP ->
  exists o, table_match (cond1 unset bytes e ps) limit c = Ok o /\
    match o with None => [] | Some c' => rws c' end = at_most limit (filter f (rws c)) /\
    (forall c', o = Some c' -> cols c' = cols c).
Proof.
  intros unset bytes e ps limit c f right T N H L. apply table_match_ok; try assumption.
  intros i row E. destruct (H row (nth_error_In _ _ E)) as [R F].
  destruct (cond1_ok unset bytes e ps c i row right T E R) as (b & B & S). rewrite B. f_equal.
  destruct b, (f row); try reflexivity; exfalso.
  - assert (false = true) by (apply F, S; reflexivity). discriminate.
  - assert (false = true) by (apply S, F; reflexivity). discriminate.
Qed.
Print Assumptions C69_filter_partial.

Definition name := str "name". Definition age := str "age". Definition tag := str "tag".
Definition num (z : Z) : option lval := Some (VNum TI32 z).
Definition txt (s : string) : option lval := Some (VStr (str s)).
Definition people : chunk :=
  {| cols := [(name, TStr); (age, TI32)]; rws := [[txt "ann"; num 30]; [txt "bob"; num 20]; [txt "cid"; num 41]; [txt "dan"; num 30]] |}.
Definition older : expr := And [Param CGte age 1%N; Not [Param CEq name 2%N]].
Definition args : list (N * dval) := [(1%N, DInt TapeModel.I64 30); (2%N, DStr (str "cid"))].

Lemma people_table : table people.
Proof.
  split.
  - repeat constructor; cbn; intuition discriminate.
  - repeat constructor; cbn; auto; unfold LValSpec.fits; cbn; lia.
Qed.
Example C69_example :
  forallb (regular1 older args (cols people)) (rws people) = true /\
  table_match (cond1 0%N (fun _ => []) older args) (-1) people =
    Ok (Some {| cols := cols people; rws := [[txt "ann"; num 30]; [txt "dan"; num 30]] |}) /\
  table_match (cond1 0%N (fun _ => []) older args) 1 people =
    Ok (Some {| cols := cols people; rws := [[txt "ann"; num 30]] |}).
Proof. vm_compute. repeat split. Qed.

(** Finding: the condition that is always true accepts no row, in whatever place it is used in. *)
Theorem C69_all_true_refuted : forall unset bytes ps c i l r j,
  cond1 unset bytes AllTrue ps c i = Ok false /\ cond2 AllTrue ps l r i j = Ok false.
Proof. intros. split; reflexivity. Qed.
Print Assumptions C69_all_true_refuted.

(** Finding: a comparison of two columns of one table ignores the second column: its result is the same whatever that
    column holds, and whether it exists. *)
Theorem C69_columns_refuted : forall unset bytes o k k' k'' ps c i,
  cond1 unset bytes (Keys o k k') ps c i = cond1 unset bytes (Keys o k k'') ps c i.
Proof. reflexivity. Qed.
Print Assumptions C69_columns_refuted.

(** Finding: NULL is compared as zero, or as the empty string. *)
Theorem C69_null_refuted : forall unset bytes o k p k' z ps c i row j t,
  table c -> nth_error (rws c) i = Some row -> index_of k (cols c) = Some j -> nth_error (cols c) j = Some (k, t) ->
  nth_error row j = Some None -> t = TI8 \/ t = TI16 \/ t = TI32 \/ t = TI64 ->
  lookup N.eqb p ps = Some (DInt k' z) -> TapeModel.fits TapeModel.I64 z = true ->
  exists b, cond1 unset bytes (Param o k p) ps c i = Ok b /\ (b = true <-> related o (Number 0) (Number z)).
Proof.
  intros unset bytes o k p k' z ps c i row j t T E I C N TT L F. cbn [cond1]. unfold check1, column_of, parameter. rewrite I, L. cbn [rbind].
  rewrite (read_cell c i j row None k t E C N Logic.I). cbn [rbind].
  exists (test o (three_way 0 z)). split.
  - destruct TT as [-> | [-> | [-> | ->]]]; cbn [vzero compare_parameter kept_as as_int_of]; rewrite (read_as_fits _ _ _ F); reflexivity.
  - apply test_related. cbn. rewrite three_way_compare. reflexivity.
Qed.
Print Assumptions C69_null_refuted.
Example C69_null_example :
  let c := {| cols := [(name, TStr); (age, TI32)]; rws := [[txt "ann"; None]; [txt "bob"; num 20]] |} in
  table_match (cond1 0%N (fun _ => []) (Param CLt age 1%N) args) (-1) c =
    Ok (Some {| cols := cols c; rws := [[txt "ann"; num 0]; [txt "bob"; num 20]] |}).
Proof. vm_compute. reflexivity. Qed.

(** Finding: a NULL of a row that is returned has become a zero. *)
Theorem C69_null_row_refuted : exists c c', table c /\
  table_match (fun _ _ => Ok true) (-1) c = Ok (Some c') /\ rws c = [[txt "ann"; None]] /\ rws c' = [[txt "ann"; num 0]].
Proof.
  exists {| cols := [(name, TStr); (age, TI32)]; rws := [[txt "ann"; None]] |}, {| cols := [(name, TStr); (age, TI32)]; rws := [[txt "ann"; num 0]] |}.
  split; [|vm_compute; auto]. split; [repeat constructor; cbn; intuition discriminate|]. repeat constructor.
Qed.
Print Assumptions C69_null_row_refuted.

(** Finding: comparing an unsigned column with a negative number, or a number column with a string, ends the process
    instead of being false. *)
Theorem C69_sign_refuted : forall bytes o t z k z' s, t = TU8 \/ t = TU16 \/ t = TU32 \/ t = TU64 ->
  TapeModel.signed k = true -> (z' < 0)%Z -> TapeModel.direct TapeModel.U64 k = false ->
  compare_parameter bytes o (VNum t z) (DInt k z') = Err Throw /\ compare_parameter bytes o (VNum t z) (DStr s) = Err Throw.
Proof.
  intros bytes o t z k z' s T S N D.
  assert (R : read_as TapeModel.U64 k z' = Err Throw).
  { unfold read_as. rewrite D, S. replace (TapeModel.signed TapeModel.U64) with false by reflexivity.
    replace (z' <? 0)%Z with true by (symmetry; apply Z.ltb_lt; lia). reflexivity. }
  destruct T as [-> | [-> | [-> | ->]]]; cbn [compare_parameter kept_as as_int_of]; rewrite R; split; reflexivity.
Qed.
Print Assumptions C69_sign_refuted.
Example C69_sign_example : TapeModel.signed TapeModel.I64 = true /\ TapeModel.direct TapeModel.U64 TapeModel.I64 = false.
Proof. split; reflexivity. Qed.

(** Finding: a result of more than 1024 rows is written outside of its memory, whatever the table and the condition. *)
Theorem C69_capacity_refuted : forall p f limit c, table c -> no_nulls c ->
  (forall i row, nth_error (rws c) i = Some row -> p c i = Ok (f row)) ->
  CAP < length (at_most limit (filter f (rws c))) -> table_match p limit c = Err UB.
Proof. exact table_match_overflow. Qed.
Print Assumptions C69_capacity_refuted.
Example C69_capacity_example : exists c, table c /\ no_nulls c /\ CAP < length (at_most (-1) (filter (fun _ => true) (rws c))).
Proof.
  exists {| cols := [(age, TI32)]; rws := repeat [num 1] (S CAP) |}. split; [|split].
  - split; [repeat constructor; cbn; tauto|]. cbn [rws cols]. apply Forall_forall. intros row H. apply repeat_spec in H. subst row.
    repeat constructor; unfold LValSpec.fits; cbn; lia.
  - unfold no_nulls. cbn [rws]. apply Forall_forall. intros row H. apply repeat_spec in H. subst row. repeat constructor. discriminate.
  - vm_compute. lia.
Qed.

(** Finding: a table with a timestamp column cannot be filtered: copying a row throws. *)
Theorem C69_timestamp_refuted : forall t z, t = TSec \/ t = TMs \/ t = TUs \/ t = TNs ->
  forall k limit row rest, limit_check limit 0 = true ->
  table_match (fun _ _ => Ok true) limit {| cols := [(k, t)]; rws := (Some (VNum t z) :: row) :: rest |} = Err Throw.
Proof. intros t z [-> | [-> | [-> | ->]]] k limit row rest L; unfold table_match; rewrite L; reflexivity. Qed.
Print Assumptions C69_timestamp_refuted.

(** C69 in joins: a condition on a pair of rows is true exactly when it holds.  Proved when the values compared are of
    exactly the same type.  Missing: the cases refuted here. *)
Theorem C69_pair_partial : forall e ps l r i j a b,
  table l -> table r -> nth_error (rws l) i = Some a -> nth_error (rws r) j = Some b ->
  params_ok ps -> regular2 e ps (cols l) a (cols r) b = true ->
  exists x, cond2 e ps l r i j = Ok x /\ (x = true <-> holds_of e (given ps) (content (cols l) a) (content (cols r) b)).
Proof. exact cond2_ok. Qed.
Print Assumptions C69_pair_partial.

(** Finding: joining on an INTEGER column and a BIGINT one, or any two different types, throws. *)
Theorem C69_types_refuted : forall o t z t' z', LValSpec.basic t = true -> LValSpec.basic t' = true -> t <> t' ->
  compare_cells o (VNum t z) (VNum t' z') = Err Throw.
Proof. intros o t z t' z' B B' N. destruct t; try discriminate; destruct t'; try discriminate; try reflexivity; congruence. Qed.
Print Assumptions C69_types_refuted.

(** C20: an inner join returns, in order, the pairs of rows that satisfy the condition, with the columns of both tables.
    Proved for tables without NULLs whose shared columns have one type, up to 1024 rows of result.  Missing: the other
    joins, and the cases refuted below. *)
Theorem C20_inner_partial : forall e ps f l r,
  table l -> table r -> no_nulls l -> no_nulls r -> agree l r -> params_ok ps ->
  (forall a b, In a (rws l) -> In b (rws r) -> regular2 e ps (cols l) a (cols r) b = true /\
     (f a b = true <-> holds_of e (given ps) (content (cols l) a) (content (cols r) b))) ->
  length (relational TInner f (rws l) (rws r)) <= CAP ->
  exists out, table_join TInner (cond2 e ps l r) l r = Ok out /\
    cols out = cols l ++ filter (fun c => negb (existsb (fun c' => beqb (fst c) (fst c')) (cols l))) (cols r) /\
    Forall2 (fun row ab => length row = length (cols out) /\ made_of l r (fst ab) (snd ab) (cols out) row)
            (rws out) (relational TInner f (rws l) (rws r)).
Proof.
  intros e ps f l r Tl Tr Nl Nr AG PO H L.
  assert (P : forall i j a b, nth_error (rws l) i = Some a -> nth_error (rws r) j = Some b -> cond2 e ps l r i j = Ok (f a b)).
  { intros i j a b A B. destruct (H a b (nth_error_In _ _ A) (nth_error_In _ _ B)) as [R F].
    destruct (cond2_ok e ps l r i j a b Tl Tr A B PO R) as (x & X & S). rewrite X. f_equal.
    destruct x, (f a b); try reflexivity; exfalso.
    - assert (false = true) by (apply F, S; reflexivity). discriminate.
    - assert (false = true) by (apply S, F; reflexivity). discriminate. }
  destruct (inner_join_ok (cond2 e ps l r) f l r Tl Tr Nl Nr AG P L) as (out & E & C & F).
  exists out. split; [exact E|]. split; [|exact F]. rewrite C. apply res_cols_names; [exact (proj1 Tl)|exact (proj1 Tr)].
Qed.
Print Assumptions C20_inner_partial.

Definition tags : chunk := {| cols := [(name, TStr); (tag, TI32)]; rws := [[txt "ann"; num 1]; [txt "cid"; num 2]; [txt "ann"; num 3]] |}.
Definition same_name : expr := Keys CEq name name.
Lemma tags_table : table tags.
Proof.
  split.
  - repeat constructor; cbn; intuition discriminate.
  - repeat constructor; cbn; auto; unfold LValSpec.fits; cbn; lia.
Qed.
Example C20_inner_example :
  forallb (fun a => forallb (fun b => regular2 same_name [] (cols people) a (cols tags) b) (rws tags)) (rws people) = true /\
  table_join TInner (cond2 same_name [] people tags) people tags =
    Ok {| cols := [(name, TStr); (age, TI32); (tag, TI32)];
          rws := [[txt "ann"; num 30; num 1]; [txt "ann"; num 30; num 3]; [txt "cid"; num 41; num 2]] |}.
Proof. vm_compute. split; reflexivity. Qed.

(** Finding: left, right, full and cross joins return no row at all, whatever the tables and the condition: the rows are
    written but the result is never told how many they are. *)
Theorem C20_outer_refuted : forall t p l r out, t <> TInner -> table_join t p l r = Ok out -> rws out = [].
Proof. exact outer_join_empty. Qed.
Print Assumptions C20_outer_refuted.
Example C20_outer_example :
  map (fun t => match table_join t (cond2 same_name [] people tags) people tags with Ok c => Some (rws c) | Err _ => None end) [TFull; TLeft; TCross]
    = [Some []; Some []; Some []] /\
  length (relational TFull (fun _ _ => true) (rws people) (rws tags)) = 12.
Proof. vm_compute. split; reflexivity. Qed.

(** Finding: apart from that, the rows they write are not those of the join: a left row that matches later is first
    written with NULLs, one row for each right row before its match. *)
Theorem C20_padding_refuted : exists e l r rows,
  join_rows TLeft (cond2 e [] l r) l r = Ok (rows, 0) /\ table l /\ table r /\ length (rws l) = 4 /\
  length (relational TLeft (fun a b => match cell_of (cols l) a name, cell_of (cols r) b name with
                                       | Some (Some (VStr x)), Some (Some (VStr y)) => beqb x y | _, _ => false end) (rws l) (rws r)) = 5 /\
  length rows = 10.
Proof.
  exists same_name, people, tags, (match join_rows TLeft (cond2 same_name [] people tags) people tags with Ok (x, _) => x | Err _ => [] end).
  split; [vm_compute; reflexivity|]. split; [exact people_table|]. split; [exact tags_table|]. vm_compute. repeat split.
Qed.
Print Assumptions C20_padding_refuted.

(** Finding: a right join of a right table that has more rows than the left one reads rows of the left table that do not
    exist. *)
Theorem C20_right_refuted : forall o k k' ps l r jl t,
  rws l <> [] -> length (rws l) < length (rws r) -> index_of k (cols l) = Some jl -> nth_error (cols l) jl = Some (k, t) ->
  forall out, table_join TRight (cond2 (Keys o k k') ps l r) l r <> Ok out.
Proof.
  intros o k k' ps l r jl t NE LT I C out H. unfold table_join, join_rows in H.
  set (p := cond2 (Keys o k k') ps l r) in *.
  assert (B : forall i j, length (rws l) <= i -> exists e, p i j = Err e).
  { intros i j G. unfold p. cbn [cond2]. unfold check2, column_of. rewrite I. cbn [rbind]. unfold read.
    rewrite (proj2 (nth_error_None (rws l) i) G). eexists. reflexivity. }
  assert (S : forall n i acc o', right_outer p l r n i acc = Ok o' -> i + n <= length (rws l) \/ n = 0).
  { induction n as [|n IH]; intros i acc o' E; [right; reflexivity|]. left. cbn [right_outer] in E.
    destruct (Nat.le_gt_cases (length (rws l)) i) as [G|G].
    - destruct (rws l) as [|a ls] eqn:W; [congruence|]. cbn [length right_inner] in E.
      destruct (B i 0 G) as [e Y]. rewrite Y in E. cbn in E. discriminate.
    - destruct (right_inner p l r i (length (rws l)) 0 false acc) as [acc'|]; cbn [rbind] in E; [|discriminate].
      destruct (IH (S i) acc' o' E) as [X|X]; lia. }
  destruct (right_outer p l r (length (rws r)) 0 []) as [o'|] eqn:E; cbn [rbind] in H; [|discriminate].
  destruct (S _ _ _ _ E) as [X|X]; cbn in X; lia.
Qed.
Print Assumptions C20_right_refuted.
Example C20_right_example : table_join TRight (cond2 same_name [] tags people) tags people = Err UB.
Proof. vm_compute. reflexivity. Qed.

(** Finding: an inner join of more than 1024 pairs writes outside of its result. *)
Theorem C20_capacity_refuted : forall p f l r,
  table l -> table r -> no_nulls l -> no_nulls r -> agree l r ->
  (forall i j a b, nth_error (rws l) i = Some a -> nth_error (rws r) j = Some b -> p i j = Ok (f a b)) ->
  CAP < length (relational TInner f (rws l) (rws r)) -> table_join TInner p l r = Err UB.
Proof. intros p f l r Tl Tr Nl Nr AG P L. exact (inner_join_overflow p f l r Tl Tr Nl Nr AG P L). Qed.
Print Assumptions C20_capacity_refuted.

Example C20_capacity_example : exists l r, table l /\ table r /\ no_nulls l /\ no_nulls r /\ agree l r /\
  CAP < length (relational TInner (fun _ _ => true) (rws l) (rws r)).
Proof.
  exists {| cols := [(age, TI32)]; rws := repeat [num 1] (S CAP) |}, {| cols := [(tag, TI32)]; rws := [[num 2]] |}.
  split; [|split; [|split; [|split; [|split]]]].
  - split; [repeat constructor; cbn; tauto|]. cbn [rws cols]. apply Forall_forall. intros row H. apply repeat_spec in H. subst row.
    repeat constructor; unfold LValSpec.fits; cbn; lia.
  - split; [repeat constructor; cbn; tauto|]. repeat constructor; unfold LValSpec.fits; cbn; lia.
  - unfold no_nulls. cbn [rws]. apply Forall_forall. intros row H. apply repeat_spec in H. subst row. repeat constructor. discriminate.
  - repeat constructor. discriminate.
  - intros k t t' [H|[]] [H'|[]]. congruence.
  - vm_compute. lia.
Qed.

(** Finding: a NULL in a pair is zero in the result. *)
Theorem C20_null_refuted : exists l r, table l /\ table r /\ rws l = [[txt "ann"; None]] /\
  table_join TInner (cond2 same_name [] l r) l r =
    Ok {| cols := [(name, TStr); (age, TI32); (tag, TI32)]; rws := [[txt "ann"; num 0; num 1]; [txt "ann"; num 0; num 3]] |}.
Proof.
  exists {| cols := [(name, TStr); (age, TI32)]; rws := [[txt "ann"; None]] |}, tags.
  split; [|split; [exact tags_table|vm_compute; split; reflexivity]].
  split; [repeat constructor; cbn; intuition discriminate|]. repeat constructor.
Qed.
Print Assumptions C20_null_refuted.
