(** C84: UPDATE statements over documents. *)
From Verif Require Import Bytes Outcome ByteOrd.
From Verif Require TapeModel.
From Verif Require Import IndexModel IndexSpec QueryModel QuerySpec SqlModel SqlSpec SetModel SetSpec SetProofs.
Local Open Scope Z_scope.

(** A document of two integers and a string, and parts of the statements below. *)
Definition stock (i : N) (a b : Z) (s : list byte) : doc :=
  {| did := i; fields := [(str "a", DInt TapeModel.I64 a); (str "b", DInt TapeModel.I32 b); (str "s", DStr s)] |}.
Definition col (k : list byte) : node := Col [] k.
Definition int (z : Z) : node := Lit (LInt z).
Definition a : node := col (str "a").
Definition b : node := col (str "b").
(** [SET a = t.a + b * 2, s = 'new', f = TRUE] *)
Definition sets : list (list byte * node) :=
  [(str "a", Op (str "+") (Col [str "t"] (str "a")) (Paren (Op (str "*") b (int 2)))); (str "s", Lit (LStr (str "new")));
   (str "f", Cast (LStr (str "t")) (str "bool"))].

(** C84: an UPDATE gives every column it names the value of its expression on the document as it was, in the documents its
    condition is true of; their other fields and all other documents stay as they are, and the documents reported as
    modified are those that changed.  Proved for columns of the collection, integers, strings, TRUE and FALSE and the
    five operations on signed integers without overflow, with conditions as in C82.  Missing: the cases refuted below. *)
Theorem C84_update_partial : forall other to cs w f ds,
  forallb (fun c => expressible to (snd c)) cs = true -> independent cs = true ->
  match w with Some n => plain n = true | None => True end ->
  (all_literals cs + match w with Some n => constants n | None => 0 end <= 65536)%N ->
  NoDup (ids ds) ->
  (forall d, In d ds -> match w with Some n => matched n d = true /\ (f d = true <-> holds n d) | None => f d = true end) ->
  (forall d, In d ds -> f d = true -> ready cs d = true) ->
  exists ds' changed, update_statement other to cs w ds =
      Ok (ds', ids (filter (fun d => f d && changed d) ds), ids (filter (fun d => f d && negb (changed d)) ds)) /\
    Forall2 (fun d d' => if f d then updated cs d d' /\ (changed d = true <-> d' <> d) else d' = d) ds ds'.
Proof. exact update_statement_ok. Qed.
Print Assumptions C84_update_partial.

(** [UPDATE t SET ... WHERE a > 5]: the first document changes, the second is as the statement would make it, the third
    does not meet the condition. *)
Definition flagged (d : doc) : doc := {| did := did d; fields := fields d ++ [(str "f", DBool true)] |}.
Example C84_update_example :
  forallb (fun c => expressible (str "t") (snd c)) sets = true /\ independent sets = true /\
  plain (Op (str ">") a (int 5)) = true /\
  forallb (ready sets) [stock 1 7 4 (str "old"); flagged (stock 2 7 0 (str "new"))] = true /\
  forallb (matched (Op (str ">") a (int 5))) [stock 1 7 4 (str "old"); flagged (stock 2 7 0 (str "new")); stock 3 1 1 []] = true /\
  forall other, update_statement other (str "t") sets (Some (Op (str ">") a (int 5)))
    [stock 1 7 4 (str "old"); flagged (stock 2 7 0 (str "new")); stock 3 1 1 []] =
  Ok ([flagged (stock 1 15 4 (str "new")); flagged (stock 2 7 0 (str "new")); stock 3 1 1 []], [1%N], [2%N]).
Proof. repeat split; reflexivity. Qed.

(** [SET a = b, b = a]: the second assignment reads what the first has stored, the values are not exchanged. *)
Theorem C84_exchange_refuted : exists cs d d', forall other,
  forallb (fun c => defined (snd c) d) cs = true /\
  update_statement other (str "t") cs None [d] = Ok ([d'], [did d], []) /\ ~ updated cs d d'.
Proof.
  exists [(str "a", b); (str "b", a)], (stock 1 7 4 []), {| did := 1; fields :=
    [(str "a", DInt TapeModel.I64 4); (str "b", DInt TapeModel.I32 4); (str "s", DStr [])] |}.
  intros other. split; [reflexivity|]. split; [reflexivity|]. intros [_ H]. specialize (H (str "b")).
  destruct H as (v & v' & [= <-] & [= <-] & S). discriminate S.
Qed.
Print Assumptions C84_exchange_refuted.

(** [SET x = 0], [SET x = ''] and [SET x = FALSE] store nothing in a document without the field, and it is reported as not
    modified. *)
Theorem C84_default_refuted : forall n, In n [int 0; Lit (LStr []); Cast (LStr (str "f")) (str "bool")] ->
  forall other to x d, field d x = None ->
  update_statement other to [(x, n)] None [d] = Ok ([d], [], [did d]) /\ ~ updated [(x, n)] d d.
Proof.
  intros n H other to x d F. split.
  - destruct H as [<-|[<-|[<-|[]]]]; unfold update_statement; cbn; unfold old_int, old_str, old_bool; rewrite F; cbn;
      rewrite N.eqb_refl; reflexivity.
  - intros [_ U]. specialize (U x). cbn [lookup] in U. rewrite beqb_refl' in U.
    destruct U as (v & v' & _ & Q & _). congruence.
Qed.
Print Assumptions C84_default_refuted.
Example C84_default_example : field (stock 1 7 4 []) (str "x") = None.
Proof. reflexivity. Qed.

(** NULL: [SET a = NULL] is undefined, whatever the collection holds, and a column that is NULL is not copied. *)
Theorem C84_null_refuted :
  (forall other to c r w ds, update_statement other to ((c, Lit LNull) :: r) w ds = Err UB) /\
  exists d, forall other, expression_value b d = Some DNull /\
    update_statement other (str "t") [(str "a", b)] None [d] = Ok ([d], [], [did d]) /\ ~ updated [(str "a", b)] d d.
Proof.
  split; [reflexivity|]. exists {| did := 1; fields := [(str "a", DInt TapeModel.I64 7); (str "b", DNull)] |}. intros other.
  split; [reflexivity|]. split; [reflexivity|]. intros [_ U]. specialize (U (str "a")).
  destruct U as (v & v' & [= <-] & [= <-] & S). discriminate S.
Qed.
Print Assumptions C84_null_refuted.

(** A column a document does not have: [SET a = x] is undefined; [SET a = t.x + 5] counts it as 0, and so does
    [SET a = x + 5] when a document before had the column - in the other order of the documents it is undefined. *)
Definition extended (x : Z) (d : doc) : doc := {| did := did d; fields := fields d ++ [(str "x", DInt TapeModel.I64 x)] |}.
Theorem C84_missing_refuted :
  (forall other to k x d, field d x = None -> update_statement other to [(k, col x)] None [d] = Err UB) /\
  (exists d, forall other, expression_value (Op (str "+") (Col [str "t"] (str "x")) (int 5)) d = None /\
    update_statement other (str "t") [(str "a", Op (str "+") (Col [str "t"] (str "x")) (int 5))] None [d] =
      Ok ([stock 1 5 4 []], [1%N], [])) /\
  exists d1 d2, forall other,
    update_statement other (str "t") [(str "a", Op (str "+") (col (str "x")) (int 5))] None [d1; d2] =
      Ok ([extended 3 (stock 1 8 4 []); stock 2 5 4 []], [1%N; 2%N], []) /\
    update_statement other (str "t") [(str "a", Op (str "+") (col (str "x")) (int 5))] None [d2; d1] = Err UB.
Proof.
  split; [|split].
  - intros other to k x d F. unfold update_statement. cbn. rewrite F. reflexivity.
  - exists (stock 1 7 4 []). intros other. split; reflexivity.
  - exists (extended 3 (stock 1 7 4 [])), (stock 2 7 4 []). intros other. split; reflexivity.
Qed.
Print Assumptions C84_missing_refuted.

(** Signs and comparisons: an operator with one side is undefined, and so is [=].  Only the first character of an operator
    is read, so that [a < b] and [a <= b] are shifts; [a || b] is the cube root of [a]; [a <> b] a shift and [a != b] the
    factorial of [a]. *)
Theorem C84_operator_refuted :
  (forall other to c o n r w ds, update_statement other to ((c, Sign o n) :: r) w ds = Err UB) /\
  (forall other to c l r rest w ds, update_statement other to ((c, Op (str "=") l r) :: rest) w ds = Err UB) /\
  (forall to from l r st, transform_set to from (Op (str "<=") l r) st = transform_set to from (Op (str "<<") l r) st /\
    transform_set to from (Op (str "<>") l r) st = transform_set to from (Op (str "<<") l r) st /\
    transform_set to from (Op (str ">=") l r) st = transform_set to from (Op (str ">>") l r) st /\
    transform_set to from (Op (str "||") l r) st = transform_set to from (Op (str "||/") l r) st /\
    transform_set to from (Op (str "!=") l r) st = transform_set to from (Op (str "!") l r) st) /\
  exists d, forall other,
    update_statement other (str "t") [(str "s", Op (str "<=") a b)] None [d] =
      Ok ([{| did := 1; fields := [(str "a", DInt TapeModel.I64 7); (str "b", DInt TapeModel.I32 4); (str "s", DInt TapeModel.I64 112)] |}], [1%N], []).
Proof.
  repeat split; try reflexivity. exists (stock 1 7 4 []). reflexivity.
Qed.
Print Assumptions C84_operator_refuted.

(** A cast is a truth value whatever its type: [SET a = '5'::int] stores nothing, or FALSE over TRUE. *)
Theorem C84_cast_refuted :
  (forall other to k d t, field d k <> Some (DBool true) ->
    update_statement other to [(k, Cast (LStr (str "5")) t)] None [d] = Ok ([d], [], [did d])) /\
  forall other t, update_statement other (str "t") [(str "a", Cast (LStr (str "5")) t)] None
    [{| did := 1; fields := [(str "a", DBool true)] |}] = Ok ([{| did := 1; fields := [(str "a", DBool false)] |}], [1%N], []).
Proof.
  split; [|reflexivity]. intros other to k d t H. unfold update_statement. cbn.
  assert (O : old_bool d k = false) by (unfold old_bool; destruct (field d k) as [[ |[]| | | ]|]; congruence).
  rewrite O. cbn. rewrite N.eqb_refl. reflexivity.
Qed.
Print Assumptions C84_cast_refuted.
Example C84_cast_example : field (stock 1 7 4 []) (str "a") <> Some (DBool true).
Proof. discriminate. Qed.

(** Statements that cannot be carried out on a document are not refused: a division by zero and an overflow are undefined,
    a number and a string end the process, and an unsigned difference below zero wraps around. *)
Theorem C84_error_refuted :
  (forall other, update_statement other (str "t") [(str "a", Op (str "/") a (int 0))] None [stock 1 7 4 []] = Err UB) /\
  (forall other, update_statement other (str "t") [(str "a", Op (str "%") a (int 0))] None [stock 1 7 4 []] = Err UB) /\
  (forall other, update_statement other (str "t") [(str "a", Op (str "+") a (int 1))] None [stock 1 (2 ^ 63 - 1) 4 []] = Err UB) /\
  (forall other, update_statement other (str "t") [(str "a", Op (str "+") a (Lit (LStr (str "x"))))] None [stock 1 7 4 []] = Err Throw) /\
  forall other, update_statement other (str "t") [(str "a", Op (str "-") a (int 5))] None
    [{| did := 1; fields := [(str "a", DInt TapeModel.U8 3)] |}] =
    Ok ([{| did := 1; fields := [(str "a", DInt TapeModel.U64 (2 ^ 64 - 2))] |}], [1%N], []).
Proof. repeat split; reflexivity. Qed.
Print Assumptions C84_error_refuted.

(** Two collections.  A document that several documents of the other one match is updated for each of them, the condition
    tested on what is there by then: [UPDATE t SET a = a + 1 FROM u]. *)
Theorem C84_several_refuted : exists cs l r1 r2 l', forall other,
  update_from other (str "t") (str "u") cs None [l] [r1; r2] = Ok [l'] /\
  expression_value (snd (hd (str "", Other) cs)) l = Some (DInt TapeModel.I64 8) /\
  field l' (str "a") = Some (DInt TapeModel.I64 9).
Proof.
  exists [(str "a", Op (str "+") a (int 1))], (stock 1 7 4 []), (stock 2 0 0 []), (stock 3 0 0 []), (stock 1 9 4 []).
  intros other. repeat split; reflexivity.
Qed.
Print Assumptions C84_several_refuted.

(** The table named before a column of a condition is not looked at: [WHERE u.a = t.b] is [WHERE t.a = u.b]. *)
Theorem C84_sides_refuted :
  (forall other to from cs o p p' q q' k k' ds fs,
    update_from other to from cs (Some (Op o (Col p k) (Col p' k'))) ds fs =
    update_from other to from cs (Some (Op o (Col q k) (Col q' k'))) ds fs) /\
  exists l r, field l (str "b") = Some (DInt TapeModel.I32 4) /\ field r (str "a") = Some (DInt TapeModel.I64 4) /\
    forall other, update_from other (str "t") (str "u") [(str "s", Lit (LStr (str "hit")))]
      (Some (Op (str "=") (Col [str "u"] (str "a")) (Col [str "t"] (str "b")))) [l] [r] = Ok [l].
Proof.
  split; [reflexivity|]. exists (stock 1 7 4 []), (stock 2 4 9 []). repeat split; reflexivity.
Qed.
Print Assumptions C84_sides_refuted.

(** A column without a table is looked for once: [UPDATE t SET a = x FROM u] reads [u.x] for every document after one
    without [x], also for those that have it. *)
Theorem C84_side_kept_refuted : exists d1 d2 r, field d2 (str "x") = Some (DInt TapeModel.I64 3) /\
  forall other,
  update_from other (str "t") (str "u") [(str "a", col (str "x"))] None [d2] [r] = Ok [extended 3 (stock 2 3 4 [])] /\
  update_from other (str "t") (str "u") [(str "a", col (str "x"))] None [d1; d2] [r] =
    Ok [stock 1 9 4 []; extended 3 (stock 2 9 4 [])].
Proof.
  exists (stock 1 7 4 []), (extended 3 (stock 2 7 4 [])), (extended 9 (stock 3 0 0 [])). repeat split; reflexivity.
Qed.
Print Assumptions C84_side_kept_refuted.
