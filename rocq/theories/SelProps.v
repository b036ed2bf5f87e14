(** C83: SELECT statements over documents. *)
From Verif Require Import Bytes Outcome ByteOrd.
From Verif Require TapeModel.
From Verif Require Import IndexModel IndexSpec QueryModel QuerySpec GroupModel GroupSpec SqlModel SqlSpec SelModel SelSpec SelProofs.
From Coq Require Import Sorting.Permutation Sorting.Sorted.
Local Open Scope Z_scope.

(** A collection of people, and one of towns. *)
Definition num (z : Z) : dval := DInt TapeModel.I64 z.
Definition D (i : N) (fs : list (list byte * dval)) : doc := {| did := i; fields := fs |}.
Definition name := str "name".
Definition town := str "town".
Definition age := str "age".
Definition people : list doc :=
  [ D 1 [(name, DStr (str "Ada")); (town, DStr (str "York")); (age, num 30)];
    D 2 [(name, DStr (str "Bob")); (town, DStr (str "Bath")); (age, num 20)];
    D 3 [(name, DStr (str "Cyd")); (town, DStr (str "York")); (age, num 40)];
    D 4 [(name, DStr (str "Dan")); (town, DStr (str "York")); (age, num 10)] ].
Definition towns : list doc := [D 5 [(town, DStr (str "York"))]; D 6 [(town, DStr (str "Bath"))]].
Definition db : list (list byte * list doc) := [(str "people", people); (str "towns", towns)].
(** [SELECT targets FROM people WHERE w ORDER BY ks] *)
Definition ask (ts : list target) (w : option node) (ks : list (list byte * bool)) : query :=
  {| q_distinct := false; q_targets := ts; q_from := [str "people"]; q_where := w; q_group := []; q_having := None;
     q_order := ks; q_limit := None; q_offset := None |}.
(** [age > 15] *)
Definition grown : node := Op (str ">") (Col [] age) (Lit (LInt 15)).
Definition is_grown (d : doc) : bool := match field d age with Some (DInt _ z) => 15 <? z | _ => false end.
Definition col (k : list byte) : target := TCol [] k None.

(** C83: [SELECT * FROM t WHERE c ORDER BY ks] returns exactly the documents of the collection for which the condition is
    true, unchanged, in the order of the keys.  Proved for conditions as in C82, keys as in C22, and statements without DISTINCT,
    GROUP BY, HAVING, LIMIT and OFFSET.  Missing: the cases refuted below. *)
Theorem C83_star_partial : forall digits q db t f, bare q -> q_group q = [] -> q_from q = [t] -> q_targets q = [TStar] ->
  accepts (q_where q) f (collection db t) -> sortable (q_order q) (filter f (collection db t)) ->
  select_rows digits q db = Ok (filter f (collection db t)) /\
  forall out, selects digits q db out -> Permutation (filter f (collection db t)) out /\
    StronglySorted (fun a b => lex (q_order q) a b <> Gt) out /\ (q_order q = [] -> out = filter f (collection db t)).
Proof. intros digits q d t f _ _. exact (star_ok digits q d t f). Qed.
Print Assumptions C83_star_partial.

(** C83: [SELECT c1, ..., cn FROM t WHERE c] returns one row for each such document, in their order, with the values of
    the columns.  Proved when every document has the columns and no two agree in all of them. *)
Theorem C83_columns_partial : forall digits q db t f cs, bare q -> q_group q = [] -> q_from q = [t] -> cs <> [] -> NoDup cs ->
  q_targets q = columns cs -> accepts (q_where q) f (collection db t) -> let found := filter f (collection db t) in
  GroupSpec.plain cs found -> (forall d c, In d found -> In c cs -> field d c <> None) -> all_different cs found ->
  exists rows, select_rows digits q db = Ok rows /\ Forall2 (row_of cs) found rows.
Proof. intros digits q d t f cs _ _ F NE _. exact (columns_ok digits q d t f cs F NE). Qed.
Print Assumptions C83_columns_partial.

(** The same for [SELECT c1 AS a1, ..., cn AS an FROM t WHERE c] with different names. *)
Theorem C83_aliases_partial : forall digits q db t f cas, bare q -> q_group q = [] -> q_from q = [t] -> cas <> [] ->
  NoDup (map snd cas) -> q_targets q = aliased cas -> accepts (q_where q) f (collection db t) ->
  let found := filter f (collection db t) in let cs := map fst cas in
  GroupSpec.plain cs found -> (forall d c, In d found -> In c cs -> field d c <> None) -> all_different cs found ->
  exists rows, select_rows digits q db = Ok rows /\ Forall2 (aliased_row cas) found rows.
Proof. intros digits q d t f cas _ _. exact (aliased_ok digits q d t f cas). Qed.
Print Assumptions C83_aliases_partial.
(** [SELECT name AS who, age AS years FROM people WHERE age > 15]; the hypotheses are those of [C83_columns_example]. *)
Example C83_aliases_example : forall digits,
  select_rows digits (ask (aliased [(name, str "who"); (age, str "years")]) (Some grown) []) db =
  Ok [D 0 [(str "who", DStr (str "Ada")); (str "years", num 30)]; D 0 [(str "who", DStr (str "Bob")); (str "years", num 20)];
      D 0 [(str "who", DStr (str "Cyd")); (str "years", num 40)]].
Proof. intros digits. vm_compute. reflexivity. Qed.

(** C83: [SELECT c1, ..., cn, count(x) FROM t WHERE c GROUP BY c1, ..., cn] returns one row for each combination of
    values, with the number of documents that have it.  Proved when every document has the columns and [x], and for an
    [x] that is never NULL. *)
Theorem C83_groups_partial : forall digits q db t f cs x, bare q -> q_group q = cs -> q_from q = [t] -> NoDup cs ->
  q_targets q = columns cs ++ [TFunc (str "count") [([], x)] None] -> ~ In (str "count(" ++ x ++ str ")") cs ->
  accepts (q_where q) f (collection db t) -> let found := filter f (collection db t) in
  GroupSpec.plain cs found -> (forall d c, In d found -> In c cs -> field d c <> None) ->
  (forall d, In d found -> exists v, field d x = Some v /\ v <> DNull) -> (cs = [] -> found <> []) ->
  exists rows, select_rows digits q db = Ok rows /\
    Forall2 (fun d row => map fst (fields row) = cs ++ [str "count(" ++ x ++ str ")"] /\
                          (forall c, In c cs -> same_field c d row) /\
                          field row (str "count(" ++ x ++ str ")") =
                            Some (DInt TapeModel.U64 (Z.of_nat (length (filter (same_keys cs d) found)))))
      (leaders cs found) rows.
Proof.
  intros digits q d t f cs x _ _ F _ T N A found P H _ _. exact (groups_ok digits q d t f cs x F T N A P H).
Qed.
Print Assumptions C83_groups_partial.

Lemma grown_accepts : accepts (Some grown) is_grown people.
Proof.
  split; [reflexivity|]. split; [discriminate|].
  assert (E : forall z, (15 <? z) = true <-> (z ?= 15) = Gt).
  { intros z. rewrite Z.ltb_lt, Z.compare_gt_iff. reflexivity. }
  assert (H : forall d z, field d age = Some (num z) -> is_grown d = true <-> holds grown d).
  { intros d z F. unfold is_grown. rewrite F. cbn [num]. rewrite E. unfold grown. cbn [holds value_of]. split.
    - intros G. exists CGt, (num z), (num 15). repeat split; [exact F|]. cbn. rewrite G. reflexivity.
    - intros (c & x & y & [= <-] & X & [= <-] & S). rewrite F in X. injection X as <-. cbn in S. congruence. }
  intros d [<-|[<-|[<-|[<-|[]]]]]; (split; [reflexivity|]); eapply H; reflexivity.
Qed.
Example C83_star_example : let q := ask [TStar] (Some grown) [(age, false)] in
  bare q /\ accepts (q_where q) is_grown (collection db (str "people")) /\
  forallb (fun a => forallb (fun b => orderable (field a age) (field b age)) people) people = true /\
  (forall digits, match select_rows digits q db with Ok l => map did l | Err _ => [] end = [1; 2; 3]%N) /\
  selects (fun _ => []) q db [nth 2 people (D 0 []); nth 0 people (D 0 []); nth 1 people (D 0 [])].
Proof.
  cbn zeta. split; [repeat split|]. split; [exact grown_accepts|]. split; [reflexivity|]. split; [reflexivity|].
  eexists. split; [reflexivity|]. cbn [q_order ask].
  exists (fun a b => match before [(age, false)] a b with Ok r => r | Err _ => false end).
  split; [|split; [|split]].
  - intros a b [<-|[<-|[<-|[]]]] [<-|[<-|[<-|[]]]]; vm_compute; reflexivity.
  - split; [|split].
    + intros a [<-|[<-|[<-|[]]]]; vm_compute; reflexivity.
    + intros a b c [<-|[<-|[<-|[]]]] [<-|[<-|[<-|[]]]] [<-|[<-|[<-|[]]]]; vm_compute; congruence.
    + intros a b c [<-|[<-|[<-|[]]]] [<-|[<-|[<-|[]]]] [<-|[<-|[<-|[]]]]; vm_compute; split; congruence.
  - apply Permutation_sym. eapply perm_trans; [apply perm_swap|]. apply perm_skip. apply perm_swap.
  - repeat constructor.
Qed.
Example C83_columns_example : let q := ask (columns [name; age]) (Some grown) [] in
  accepts (q_where q) is_grown (collection db (str "people")) /\
  GroupSpec.plain [name; age] (filter is_grown people) /\ all_different [name; age] (filter is_grown people) /\
  forall digits, select_rows digits q db =
    Ok [D 0 [(name, DStr (str "Ada")); (age, num 30)]; D 0 [(name, DStr (str "Bob")); (age, num 20)];
        D 0 [(name, DStr (str "Cyd")); (age, num 40)]].
Proof.
  cbn zeta. split; [exact grown_accepts|]. split; [|split; [|intros digits; vm_compute; reflexivity]].
  { intros a b k [<-|[<-|[<-|[]]]] [<-|[<-|[<-|[]]]] [<-|[<-|[]]]; reflexivity. }
  cbn [filter people is_grown]. repeat constructor; reflexivity.
Qed.
Example C83_groups_example : forall digits,
  select_rows digits {| q_distinct := false; q_targets := columns [town] ++ [TFunc (str "count") [([], name)] None];
    q_from := [str "people"]; q_where := Some grown; q_group := [town]; q_having := None; q_order := [];
    q_limit := None; q_offset := None |} db =
  Ok [D 0 [(town, DStr (str "York")); (str "count(name)", DInt TapeModel.U64 2)];
      D 0 [(town, DStr (str "Bath")); (str "count(name)", DInt TapeModel.U64 1)]].
Proof. intros digits. vm_compute. reflexivity. Qed.

(** The columns of the list are the keys of a group: without DISTINCT, equal rows are returned once. *)
Theorem C83_duplicates_refuted : forall digits,
  length people = 4%nat /\
  select_rows digits (ask [col town] None []) db = Ok [D 0 [(town, DStr (str "York"))]; D 0 [(town, DStr (str "Bath"))]].
Proof. intros digits. split; [reflexivity|vm_compute; reflexivity]. Qed.
Print Assumptions C83_duplicates_refuted.

(** A document without one of the columns is left out. *)
Theorem C83_missing_refuted : forall digits, exists ds, length ds = 2%nat /\
  select_rows digits (ask [col name; col age] None []) [(str "people", ds)] = Ok [D 0 [(name, DStr (str "Ada")); (age, num 30)]].
Proof.
  intros digits. exists [D 1 [(name, DStr (str "Ada")); (age, num 30)]; D 2 [(name, DStr (str "Bob"))]].
  split; [reflexivity|vm_compute; reflexivity].
Qed.
Print Assumptions C83_missing_refuted.

(** DISTINCT, GROUP BY, HAVING, LIMIT and OFFSET change nothing, whatever they are and whatever the rest of the statement
    is. *)
Theorem C83_ignored_refuted : forall digits q db out dis grp hav lim off,
  selects digits {| q_distinct := dis; q_targets := q_targets q; q_from := q_from q; q_where := q_where q; q_group := grp;
    q_having := hav; q_order := q_order q; q_limit := lim; q_offset := off |} db out <-> selects digits q db out.
Proof. intros. destruct q. cbn. reflexivity. Qed.
Print Assumptions C83_ignored_refuted.
(** for one: [SELECT * FROM people LIMIT 1] returns four documents *)
Example C83_limit_example : forall digits,
  selects digits {| q_distinct := false; q_targets := [TStar]; q_from := [str "people"]; q_where := None; q_group := [];
    q_having := None; q_order := []; q_limit := Some 1; q_offset := None |} db people.
Proof. intros digits. exists people. split; reflexivity. Qed.

(** A second collection in FROM is not looked at: [SELECT * FROM people, towns] returns the documents of the first,
    not the pairs. *)
Theorem C83_from_refuted : forall digits, exists q, q_from q = [str "people"; str "towns"] /\ q_targets q = [TStar] /\
  length (pairs (collection db (str "people")) (collection db (str "towns"))) = 8%nat /\ select_rows digits q db = Ok people.
Proof.
  intros digits.
  exists {| q_distinct := false; q_targets := [TStar]; q_from := [str "people"; str "towns"]; q_where := None; q_group := [];
    q_having := None; q_order := []; q_limit := None; q_offset := None |}. repeat split.
Qed.
Print Assumptions C83_from_refuted.

(** [SELECT *, name] returns only the name. *)
Theorem C83_star_and_more_refuted : forall digits q db c, q_targets q = [TStar; col c] ->
  select_rows digits q db =
  select_rows digits {| q_distinct := q_distinct q; q_targets := [col c]; q_from := q_from q; q_where := q_where q;
    q_group := q_group q; q_having := q_having q; q_order := q_order q; q_limit := q_limit q; q_offset := q_offset q |} db.
Proof. intros digits [] d c H. cbn in H. subst. reflexivity. Qed.
Print Assumptions C83_star_and_more_refuted.

(** Statements whose translation reads the first element of an empty list: without FROM, and with [count( * )], whatever
    else they have and whatever is stored. *)
Theorem C83_undefined_refuted : forall digits q db, (q_from q = [] \/ exists f a ts, q_targets q = TFunc f [] a :: ts) ->
  select_rows digits q db = Err UB.
Proof.
  intros digits q d [H|(f & a & ts & H)]; unfold select_rows, transform_select.
  - rewrite H. reflexivity.
  - rewrite H. destruct (q_from q); reflexivity.
Qed.
Print Assumptions C83_undefined_refuted.

(** A constant in the list ends the statement with an exception: [SELECT 1 FROM people]. *)
Theorem C83_constant_refuted : forall digits, select_rows digits (ask [TConst (Lit (LInt 1)) None] None []) db = Err Throw.
Proof. intros digits. reflexivity. Qed.
Print Assumptions C83_constant_refuted.

(** The argument of an aggregate is the first name of its path: [sum(people.age)] is a sum of a field [people], which no
    document has, and reads a value that is not there. *)
Theorem C83_path_refuted : forall digits,
  select_rows digits (ask [TFunc (str "sum") [([], age)] None] None []) db = Ok [D 0 [(str "sum(age)", num 100)]] /\
  select_rows digits (ask [TFunc (str "sum") [([str "people"], age)] None] None []) db = Err UB.
Proof. intros digits. split; vm_compute; reflexivity. Qed.
Print Assumptions C83_path_refuted.

(** A function that is no aggregate is left out of the result: [SELECT upper(name), age] has one column. *)
Theorem C83_function_refuted : forall digits,
  select_rows digits (ask [TFunc (str "upper") [([], name)] None; col age] None []) [(str "people", firstn 1 people)] =
  Ok [D 0 [(age, num 30)]].
Proof. intros digits. vm_compute. reflexivity. Qed.
Print Assumptions C83_function_refuted.

(** An aggregate over no documents has no row, not one row with 0. *)
Theorem C83_no_documents_refuted : forall digits x a, select_rows digits (ask [TFunc (str "count") [([], x)] a] None []) [] = Ok [].
Proof. intros digits x a. reflexivity. Qed.
Print Assumptions C83_no_documents_refuted.

(** The rows are sorted after they are made: by a column that is not in the list they are not sorted at all, every
    order of them may be returned. *)
Theorem C83_order_refuted : forall digits, let q := ask [col name] None [(age, true)] in
  exists rows, select_rows digits q db = Ok rows /\ length rows = 4%nat /\
  forall out, Permutation rows out -> selects digits q db out.
Proof.
  intros digits q.
  exists [D 0 [(name, DStr (str "Ada"))]; D 0 [(name, DStr (str "Bob"))]; D 0 [(name, DStr (str "Cyd"))]; D 0 [(name, DStr (str "Dan"))]].
  assert (R : select_rows digits q db = Ok [D 0 [(name, DStr (str "Ada"))]; D 0 [(name, DStr (str "Bob"))];
    D 0 [(name, DStr (str "Cyd"))]; D 0 [(name, DStr (str "Dan"))]]) by (vm_compute; reflexivity).
  split; [exact R|]. split; [reflexivity|]. intros out P. eexists. split; [exact R|].
  cbn [q q_order ask]. exists (fun _ _ => false). split; [|split; [|split; [exact P|]]].
  - intros a b [<-|[<-|[<-|[<-|[]]]]] [<-|[<-|[<-|[<-|[]]]]]; vm_compute; reflexivity.
  - repeat split; congruence.
  - clear. induction out as [|x out IH]; constructor; [exact IH|]. apply Forall_forall. reflexivity.
Qed.
Print Assumptions C83_order_refuted.
