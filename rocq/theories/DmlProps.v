(** C85 and C86: INSERT and DELETE statements over documents. *)
From Verif Require Import Bytes Outcome ByteOrd.
From Verif Require TapeModel OidModel.
From Verif Require Import IndexModel IndexSpec QueryModel QuerySpec GroupSpec SqlModel SqlSpec SelModel SelSpec DmlModel DmlSpec DmlProofs.
From Coq Require Import Sorting.Permutation.
Local Open Scope Z_scope.

(** Parts of the statements below. *)
Definition text (s : list byte) : node := Lit (LStr s).
Definition int (z : Z) : node := Lit (LInt z).
Definition truth : node := Cast (LStr (str "t")) (str "bool").
Definition id1 : list byte := str "000000000000000000000001".
Definition id2 : list byte := str "00000000000000000000000A".
Definition id3 : list byte := str "0000000000000000000000ff".
Definition item (s : list byte) (n : Z) : doc :=
  {| did := hexadecimal s; fields := [(str "_id", DStr s); (str "n", DInt TapeModel.I64 n)] |}.
Definition all (targets : list target) : query :=
  {| q_distinct := false; q_targets := targets; q_from := [str "t"]; q_where := None; q_group := []; q_having := None;
     q_order := []; q_limit := None; q_offset := None |}.
Definition no_digits (z : Z) : list byte := [].

(** C85: an INSERT with a list of rows adds exactly one document per row, with the values of the row in the named columns
    and no other field, and reports their ids; the documents that were there stay.  Proved for rows of integers, strings,
    TRUE and FALSE, as long as the list of columns, with the text of an id in the column [_id] that no other row and no
    document has.  Missing: the cases refuted below. *)
Theorem C85_values_partial : forall cols rows texts stored, NoDup cols -> well_stored stored -> Forall filed stored ->
  (forall r, In r rows -> length r = length cols /\ forallb SqlSpec.constant r = true) ->
  map (row_id cols) rows = map Some texts -> forallb OidModel.is_valid texts = true ->
  ForallOrdPairs (fun s s' => ~ same_id s s') texts ->
  (forall s d s', In s texts -> In d stored -> has_text s' d -> ~ same_id s s') ->
  exists ds stored', insert_values cols rows stored = Ok (stored', ids ds) /\ Forall2 (row_document cols) rows ds /\
    (forall d, In d stored' <-> In d stored \/ In d ds) /\ well_stored stored' /\ Forall filed stored'.
Proof. exact insert_values_ok. Qed.
Print Assumptions C85_values_partial.

(** [INSERT INTO t (n, _id, f) VALUES (5, '..ff', TRUE), (6, '..01', TRUE)] into a collection of one document. *)
Example C85_values_example :
  let cols := [str "n"; str "_id"; str "f"] in let rows := [[int 5; text id3; truth]; [int 6; text id1; truth]] in
  forallb (fun r => forallb SqlSpec.constant r) rows = true /\ map (row_id cols) rows = [Some id3; Some id1] /\
  forallb OidModel.is_valid [id1; id2; id3] = true /\ Forall filed [item id2 4] /\ ~ same_id id3 id1 /\
  (forall s s', In s [id3; id1] -> has_text s' (item id2 4) -> ~ same_id s s') /\
  insert_values cols rows [item id2 4] =
  Ok ([{| did := 1; fields := [(str "n", DInt TapeModel.I64 6); (str "_id", DStr id1); (str "f", DBool true)] |};
       item id2 4;
       {| did := 255; fields := [(str "n", DInt TapeModel.I64 5); (str "_id", DStr id3); (str "f", DBool true)] |}],
      [255%N; 1%N]).
Proof.
  cbn zeta. split; [reflexivity|]. split; [reflexivity|]. split; [reflexivity|].
  split; [repeat constructor; exists id2; split; [split; reflexivity|reflexivity]|].
  split; [discriminate|]. split; [|vm_compute; reflexivity].
  intros s s' [<-|[<-|[]]] [[= <-] _]; discriminate.
Qed.

(** C85 for [INSERT INTO u (cols) SELECT srcs FROM t WHERE ...]: every document of [t] the condition is true of is added
    once, its columns renamed in the order of the two lists, under the same id.  Proved for columns all these documents
    have, with values as for GROUP BY (C22), among them [_id] for [_id], for ids new in [u], conditions as in C82 and no
    ORDER BY. *)
Theorem C85_select_partial : forall digits cols srcs q db t f stored, q_from q = [t] -> q_targets q = columns srcs ->
  length cols = length srcs -> NoDup cols -> NoDup srcs ->
  lookup beqb (str "_id") (combine cols srcs) = Some (str "_id") ->
  accepts (q_where q) f (collection db t) -> let found := filter f (collection db t) in
  well_stored (collection db t) -> Forall filed (collection db t) ->
  GroupSpec.plain srcs found -> (forall d c, In d found -> In c srcs -> field d c <> None) ->
  well_stored stored -> (forall d, In d found -> ~ In (did d) (ids stored)) ->
  exists ds stored', insert_select digits cols q db stored = Ok (stored', ids found) /\
    Forall2 (renamed (combine cols srcs)) found ds /\
    (forall d, In d stored' <-> In d stored \/ In d ds) /\ well_stored stored'.
Proof. exact insert_select_ok. Qed.
Print Assumptions C85_select_partial.

(** [INSERT INTO u (m, _id) SELECT n, _id FROM t WHERE n > 3] *)
Example C85_select_example :
  let q := {| q_distinct := false; q_targets := columns [str "n"; str "_id"]; q_from := [str "t"];
              q_where := Some (Op (str ">") (Col [] (str "n")) (int 3)); q_group := []; q_having := None; q_order := [];
              q_limit := None; q_offset := None |} in
  lookup beqb (str "_id") (combine [str "m"; str "_id"] [str "n"; str "_id"]) = Some (str "_id") /\
  insert_select no_digits [str "m"; str "_id"] q [(str "t", [item id1 3; item id2 4; item id3 4])] [item id1 7] =
  Ok ([item id1 7;
       {| did := 10; fields := [(str "_id", DStr id2); (str "m", DInt TapeModel.I64 4)] |};
       {| did := 255; fields := [(str "_id", DStr id3); (str "m", DInt TapeModel.I64 4)] |}], [10%N; 255%N]).
Proof. cbn zeta. split; [reflexivity|]. vm_compute. reflexivity. Qed.

(** The same for [INSERT INTO u (cols) SELECT s1 AS a1, ..., sn AS an FROM t WHERE ...]: a column gets the value of the
    column of [t] at its place, whatever the name given to it. *)
Theorem C85_aliases_partial : forall digits cols cas q db t f stored, q_from q = [t] -> q_targets q = aliased cas ->
  length cols = length cas -> NoDup cols -> NoDup (map snd cas) ->
  lookup beqb (str "_id") (combine cols cas) = Some (str "_id", str "_id") ->
  accepts (q_where q) f (collection db t) -> let found := filter f (collection db t) in
  well_stored (collection db t) -> Forall filed (collection db t) ->
  GroupSpec.plain (map fst cas) found -> (forall d c, In d found -> In c (map fst cas) -> field d c <> None) ->
  well_stored stored -> (forall d, In d found -> ~ In (did d) (ids stored)) ->
  exists ds stored', insert_select digits cols q db stored = Ok (stored', ids found) /\
    Forall2 (renamed (combine cols (map fst cas))) found ds /\
    (forall d, In d stored' <-> In d stored \/ In d ds) /\ well_stored stored'.
Proof. exact insert_aliases_ok. Qed.
Print Assumptions C85_aliases_partial.

(** [INSERT INTO u (m, _id) SELECT n AS k, _id AS _id FROM t WHERE n > 3] *)
Example C85_aliases_example :
  let q := {| q_distinct := false; q_targets := aliased [(str "n", str "k"); (str "_id", str "_id")]; q_from := [str "t"];
              q_where := Some (Op (str ">") (Col [] (str "n")) (int 3)); q_group := []; q_having := None; q_order := [];
              q_limit := None; q_offset := None |} in
  lookup beqb (str "_id") (combine [str "m"; str "_id"] [(str "n", str "k"); (str "_id", str "_id")]) = Some (str "_id", str "_id") /\
  insert_select no_digits [str "m"; str "_id"] q [(str "t", [item id1 3; item id2 4; item id3 4])] [item id1 7] =
  Ok ([item id1 7;
       {| did := 10; fields := [(str "_id", DStr id2); (str "m", DInt TapeModel.I64 4)] |};
       {| did := 255; fields := [(str "_id", DStr id3); (str "m", DInt TapeModel.I64 4)] |}], [10%N; 255%N]).
Proof. cbn zeta. split; [reflexivity|]. vm_compute. reflexivity. Qed.

(** Rows without the column [_id] all have the id of zeros: of several the last alone stays, with every row reported, and
    a later statement adds nothing and reports nothing.  No error is given. *)
Theorem C85_no_id_refuted : forall c x y v w, beqb (str "_id") c = false -> constant_of x = Some v -> constant_of y = Some w ->
  SqlSpec.constant x = true -> SqlSpec.constant y = true ->
  insert_values [c] [[x]; [y]] [] = Ok ([{| did := 0; fields := [(c, w)] |}], [0%N; 0%N]) /\
  forall d, did d = 0%N -> insert_values [c] [[x]] [d] = Ok ([d], []).
Proof. exact no_id. Qed.
Print Assumptions C85_no_id_refuted.
Example C85_no_id_example : beqb (str "_id") (str "n") = false /\ SqlSpec.constant (int 1) = true /\ SqlSpec.constant truth = true.
Proof. repeat split; reflexivity. Qed.

(** The same for anything but the text of an id in [_id]: an integer, TRUE, another string. *)
Theorem C85_bad_id_refuted : forall x y v w, constant_of x = Some v -> constant_of y = Some w ->
  SqlSpec.constant x = true -> SqlSpec.constant y = true ->
  (forall s, v = DStr s \/ w = DStr s -> OidModel.is_valid s = false) ->
  insert_values [str "_id"] [[x]; [y]] [] = Ok ([{| did := 0; fields := [(str "_id", w)] |}], [0%N; 0%N]) /\
  forall d, did d = 0%N -> insert_values [str "_id"] [[x]] [d] = Ok ([d], []).
Proof. exact bad_id. Qed.
Print Assumptions C85_bad_id_refuted.
Example C85_bad_id_example : constant_of (int 7) = Some (DInt TapeModel.I64 7) /\
  constant_of (text (str "seven")) = Some (DStr (str "seven")) /\ OidModel.is_valid (str "seven") = false.
Proof. repeat split; reflexivity. Qed.

(** An id that a document has already: none of the rows of the statement is stored, and no error is given.  An id twice in
    one statement: the second row takes the place of the first, both are reported. *)
Theorem C85_known_id_refuted :
  (exists rows, insert_values [str "_id"; str "n"] rows [item id1 3] = Ok ([item id1 3], []) /\ length rows = 2%nat /\
     insert_values [str "_id"; str "n"] rows [] = Ok ([item id1 5; item id2 6], [1%N; 10%N])) /\
  insert_values [str "_id"; str "n"] [[text id1; int 5]; [text id1; int 6]] [] = Ok ([item id1 6], [1%N; 1%N]).
Proof.
  split; [exists [[text id1; int 5]; [text id2; int 6]]; split; [|split]|]; vm_compute; reflexivity.
Qed.
Print Assumptions C85_known_id_refuted.

(** [INSERT INTO t VALUES ...] without a list of columns, or with more values than columns, reads past the end of the
    list; a row with fewer values is stored without the rest, not refused. *)
Theorem C85_columns_refuted :
  (forall x r rows stored, insert_values [] ((x :: r) :: rows) stored = Err UB) /\
  (forall c x y v r rows stored, node_value x = Ok v -> insert_values [c] ((x :: y :: r) :: rows) stored = Err UB) /\
  (forall c, beqb c (str "_id") = false -> forall s v, OidModel.is_valid s = true ->
     exists d, field d c = None /\ insert_values [str "_id"; c] [[text s]] [] = Ok ([d], [did d]) /\
       insert_values [c; str "_id"] [[int v; text s]] [] = Ok ([{| did := did d; fields := [(c, DInt TapeModel.I64 v); (str "_id", DStr s)] |}], [did d])).
Proof. exact column_counts. Qed.
Print Assumptions C85_columns_refuted.
Example C85_columns_example : beqb (str "n") (str "_id") = false /\ OidModel.is_valid id1 = true /\ node_value truth = Ok (DBool true).
Proof. repeat split; reflexivity. Qed.

(** [VALUES (1 + 2)] stores NULL, [VALUES ('5'::int)] stores FALSE, a negative number written with a sign stores NULL, and
    NULL itself is undefined. *)
Theorem C85_expression_refuted : forall c stored, beqb (str "_id") c = false -> stored = [] ->
  (forall o x y, insert_values [c] [[Op o x y]] stored = Ok ([{| did := 0; fields := [(c, DNull)] |}], [0%N])) /\
  (forall o x, insert_values [c] [[Sign o x]] stored = Ok ([{| did := 0; fields := [(c, DNull)] |}], [0%N])) /\
  (forall s t, beqb s (str "t") = false ->
     insert_values [c] [[Cast (LStr s) t]] stored = Ok ([{| did := 0; fields := [(c, DBool false)] |}], [0%N])) /\
  insert_values [c] [[Lit LNull]] stored = Err UB.
Proof. exact expressions_stored. Qed.
Print Assumptions C85_expression_refuted.
Example C85_expression_example : beqb (str "5") (str "t") = false.
Proof. reflexivity. Qed.

(** [INSERT INTO u (cols) SELECT * FROM t] does not look at the list of columns: whatever it is, the documents go in as
    they are. *)
Theorem C85_star_refuted : forall digits cols db, insert_select digits cols (all [TStar]) db [] =
  insert_select digits [] (all [TStar]) db [] /\
  exists db d, insert_select digits [str "_id"] (all [TStar]) db [] = Ok ([d], ids [d]) /\ field d (str "n") <> None.
Proof.
  intros digits cols db. split.
  - unfold insert_select. destruct (transform_select digits (all [TStar])) as [p|e] eqn:T; [|reflexivity].
    assert (G : p_group p = []) by (injection T as <-; reflexivity). cbn [rbind]. rewrite G. cbn [translation rbind].
    destruct (run_plan p db) as [rows|e]; [|reflexivity]. cbn [rbind]. unfold insert_documents. rewrite simple_same. reflexivity.
  - exists [(str "t", [item id1 3])], (item id1 3). split; [vm_compute; reflexivity|discriminate].
Qed.
Print Assumptions C85_star_refuted.

(** And they are the same documents: what is done to the documents of one collection later is done to those of the other. *)
Theorem C85_shared_refuted : forall t u f d, beqb u t = false ->
  let m := share u t {| docs := [d]; colls := [(t, [0%nat])] |} in
  contents m u = [d] /\ contents (change_all f t m) u = [f d] /\ contents (change_all f u m) t = [f d].
Proof. exact shared. Qed.
Print Assumptions C85_shared_refuted.
Example C85_shared_example : beqb (str "u") (str "t") = false.
Proof. reflexivity. Qed.

(** Without [_id] among the columns of the SELECT one row is left of any number. *)
Theorem C85_select_no_id_refuted : forall digits, exists db rows, select_rows digits (all (columns [str "n"])) db = Ok rows /\
  length rows = 3%nat /\
  insert_select digits [str "n"] (all (columns [str "n"])) db [] = Ok ([{| did := 0; fields := [(str "n", DInt TapeModel.I64 5)] |}],
    [0%N; 0%N; 0%N]).
Proof.
  intros digits. exists [(str "t", [item id1 3; item id2 4; item id3 5])]. eexists. split; [vm_compute; reflexivity|].
  split; vm_compute; reflexivity.
Qed.
Print Assumptions C85_select_no_id_refuted.

(** Aggregates of the SELECT are not counted as columns: with a column for each the statement is refused, without one the
    value is stored under the name it has in the SELECT. *)
Theorem C85_aggregate_refuted : forall digits,
  let q := all [TCol [] (str "_id") None; TFunc (str "count") [([], str "n")] (Some (str "c"))] in
  (forall db stored, insert_select digits [str "_id"; str "c"] q db stored = Err Throw) /\
  exists db d, insert_select digits [str "_id"] q db [] = Ok ([d], ids [d]) /\ field d (str "c") <> None.
Proof.
  intros digits. cbn zeta. split; [reflexivity|]. exists [(str "t", [item id1 3])].
  exists {| did := 1; fields := [(str "_id", DStr id1); (str "c", DInt TapeModel.U64 1)] |}. split; [vm_compute; reflexivity|]. discriminate.
Qed.
Print Assumptions C85_aggregate_refuted.

(** C86: a DELETE removes the documents its condition is true of, all of them when it has none, and no other; it reports
    the ids of those it removed.  Proved for conditions as in C82. *)
Theorem C86_delete_partial : forall w f stored, well_stored stored -> accepts w f stored ->
  exists reported, delete_statement [] w stored = Ok (filter (fun d => negb (f d)) stored, reported) /\
    Permutation reported (ids (filter f stored)).
Proof. exact delete_ok. Qed.
Print Assumptions C86_delete_partial.

(** C86 for [DELETE FROM t USING u WHERE ...]: the documents of [t] go for which some document of [u] makes the condition
    true.  Proved for comparisons with the column of [t] on the left and one of [u] or a constant on the right (or, for = and
    <>, a constant on the left and a column of [t] on the right), connected as in C82. *)
Theorem C86_using_partial : forall t u, beqb t u = false -> forall n g us stored,
  well_stored stored -> pair_plain t u n = true -> (constants n <= 65536)%N ->
  (forall l r, In l stored -> In r us -> pair_matched t u n l r = true /\ (g l r = true <-> pair_holds t u n l r)) ->
  exists reported,
    delete_statement [us] (Some n) stored = Ok (filter (fun l => negb (existsb (g l) us)) stored, reported) /\
    Permutation reported (ids (filter (fun l => existsb (g l) us) stored)).
Proof. exact delete_using_ok. Qed.
Print Assumptions C86_using_partial.

Definition greater : node := Op (str ">") (Col [str "t"] (str "n")) (Col [str "u"] (str "n")).
(** [DELETE FROM t WHERE NOT (n < 4)] and [DELETE FROM t USING u WHERE t.n > u.n AND NOT (t.n = 5)]. *)
Example C86_example :
  let w := Neg (Paren (Op (str "<") (Col [] (str "n")) (int 4))) in
  let j := Conj greater (Neg (Paren (Op (str "=") (Col [str "t"] (str "n")) (int 5)))) in
  let stored := [item id1 3; item id2 4; item id3 5] in
  SqlSpec.plain w = true /\ forallb (matched w) stored = true /\
  delete_statement [] (Some w) stored = Ok ([item id1 3], [10%N; 255%N]) /\
  pair_plain (str "t") (str "u") j = true /\
  forallb (fun l => forallb (pair_matched (str "t") (str "u") j l) [item id1 9; item id2 3]) stored = true /\
  delete_statement [[item id1 9; item id2 3]] (Some j) stored = Ok ([item id1 3; item id3 5], [10%N]).
Proof. cbn zeta. repeat split; vm_compute; reflexivity. Qed.

(** [DELETE FROM t USING u] without a condition removes every document of [t], also when [u] is empty. *)
Theorem C86_using_all_refuted : forall us stored, well_stored stored ->
  exists reported, delete_statement us None stored = Ok ([], reported) /\ Permutation reported (ids stored).
Proof. exact delete_everything. Qed.
Print Assumptions C86_using_all_refuted.
Example C86_using_all_example : delete_statement [[]] None [item id1 3; item id2 4] = Ok ([], [1%N; 10%N]).
Proof. vm_compute. reflexivity. Qed.

(** The collection a column is written with is not read: [u.n > t.n] is taken for [t.n > u.n], and [t.a = t.b] for
    [t.a = u.b]. *)
Theorem C86_sides_refuted :
  (forall p q p' q' o k k' us w stored, delete_statement (us :: w) (Some (Op o (Col p k) (Col q k'))) stored =
     delete_statement (us :: w) (Some (Op o (Col p' k) (Col q' k'))) stored) /\
  exists l r, let n := Op (str ">") (Col [str "u"] (str "n")) (Col [str "t"] (str "n")) in
    pair_matched (str "t") (str "u") n l r = true /\ ~ pair_holds (str "t") (str "u") n l r /\
    delete_statement [[r]] (Some n) [l] = Ok ([], [did l]).
Proof.
  split; [reflexivity|]. exists (item id1 5), (item id2 4). cbn zeta. split; [reflexivity|].
  split; [|vm_compute; reflexivity]. intros (c & x & y & [= <-] & [= <-] & [= <-] & S). discriminate S.
Qed.
Print Assumptions C86_sides_refuted.

(** Of several collections after USING the first alone is read. *)
Theorem C86_several_refuted : forall us rest w stored,
  delete_statement (us :: rest) w stored = delete_statement [us] w stored.
Proof. reflexivity. Qed.
Print Assumptions C86_several_refuted.

(** A constant on the left of an inequality: [DELETE FROM t WHERE 4 < n] removes the documents with [n] less than 4. *)
Theorem C86_mirrored_refuted : exists n d e, matched n d = true /\ matched n e = true /\ holds n d /\ ~ holds n e /\
  delete_statement [] (Some n) [d; e] = Ok ([d], [did e]).
Proof.
  exists (Op (str "<") (int 4) (Col [] (str "n"))), (item id1 5), (item id2 3).
  split; [reflexivity|]. split; [reflexivity|]. split; [|split].
  - exists CLt, (DInt TapeModel.I64 4), (DInt TapeModel.I64 5). repeat split; reflexivity.
  - intros (c & x & y & [= <-] & [= <-] & [= <-] & S). discriminate S.
  - vm_compute. reflexivity.
Qed.
Print Assumptions C86_mirrored_refuted.
