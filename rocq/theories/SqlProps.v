(** C82: conditions of SQL statements over documents. *)
From Verif Require Import Bytes Outcome ByteOrd.
From Verif Require TapeModel.
From Verif Require Import IndexModel IndexSpec QueryModel QuerySpec SqlModel SqlSpec SqlProofs.
Local Open Scope Z_scope.

(** Two people and the conditions used below. *)
Definition person (i : N) (age : Z) (flag : bool) : doc :=
  {| did := i; fields := [(str "age", DInt TapeModel.I64 age); (str "flag", DBool flag)] |}.
Definition age : node := Col [] (str "age").
Definition flag : node := Col [str "people"] (str "flag").
Definition num (z : Z) : node := Lit (LInt z).
Definition yes : node := Cast (LStr (str "t")) (str "bool").
(** [WHERE (age > 5 OR 3 = age) AND NOT (people.flag = TRUE)] *)
Definition condition : node :=
  Conj (Paren (Disj (Op (str ">") age (num 5)) (Op (str "=") (num 3) age))) (Neg (Paren (Op (str "=") flag yes))).

(** C82: a condition returns exactly the documents it is true of, in their order, up to the limit.  Proved for
    comparisons of a column with a constant or another column, under AND, OR, NOT and parentheses.  Missing: the cases
    refuted below. *)
Theorem C82_where_partial : forall n f limit ds, plain n = true -> (constants n <= 65536)%N ->
  (forall d, In d ds -> matched n d = true /\ (f d = true <-> holds n d)) ->
  exists o, where_scan n limit ds = Ok o /\ answer o = limited limit (filter f ds).
Proof. exact where_ok. Qed.
Print Assumptions C82_where_partial.

Example C82_where_example :
  plain condition = true /\ constants condition = 3%N /\
  forallb (matched condition) [person 1 9 false; person 2 9 true; person 3 4 false; person 4 3 false] = true /\
  where_scan condition (-1) [person 1 9 false; person 2 9 true; person 3 4 false; person 4 3 false] =
    Ok (Some [person 1 9 false; person 4 3 false]).
Proof. repeat split; reflexivity. Qed.

(** A constant on the left of an order: [5 < age] is read as [age < 5]. *)
Theorem C82_mirror_refuted : exists n d, matched n d = true /\ holds n d /\ where_scan n (-1) [d] = Ok (Some []).
Proof.
  exists (Op (str "<") (num 5) age), (person 1 9 true). split; [reflexivity|]. split; [|reflexivity].
  exists CLt, (DInt TapeModel.I64 5), (DInt TapeModel.I64 9). repeat split; reflexivity.
Qed.
Print Assumptions C82_mirror_refuted.

(** Two negations are one: [NOT NOT c] and [NOT (NOT c)] are translated as [NOT c], whatever [c] is. *)
Theorem C82_double_not_refuted :
  (forall n st, transform (Neg (Neg n)) st = transform (Neg n) st) /\
  (forall n st, transform (Neg (Paren (Neg n))) st = transform (Neg n) st) /\
  exists n d, matched n d = true /\ holds n d /\ where_scan n (-1) [d] = Ok (Some []).
Proof.
  split; [exact double_negation|]. split; [exact double_negation_paren|].
  exists (Neg (Paren (Neg (Op (str ">") age (num 5))))), (person 1 9 true). split; [reflexivity|]. split; [|reflexivity].
  cbn [holds]. intros H. apply H. exists CGt, (DInt TapeModel.I64 9), (DInt TapeModel.I64 5). repeat split; reflexivity.
Qed.
Print Assumptions C82_double_not_refuted.

(** A sum, or a constant in parentheses, is taken for NULL, which is after everything: [age > 2 + 3] and [age > (5)]
    reject a document of age 9, and [age < (5)] accepts it. *)
Theorem C82_computed_refuted : exists n1 n2 n3 d,
  (holds n1 d /\ where_scan n1 (-1) [d] = Ok (Some [])) /\
  (holds n2 d /\ where_scan n2 (-1) [d] = Ok (Some [])) /\
  (~ holds n3 d /\ where_scan n3 (-1) [d] = Ok (Some [d])).
Proof.
  exists (Op (str ">") age (Op (str "+") (num 2) (num 3))), (Op (str ">") age (Paren (num 5))),
    (Op (str "<") age (Paren (num 5))), (person 1 9 true).
  split; [|split]; (split; [|reflexivity]).
  - exists CGt, (DInt TapeModel.I64 9), (DInt TapeModel.I64 5). repeat split; reflexivity.
  - exists CGt, (DInt TapeModel.I64 9), (DInt TapeModel.I64 5). repeat split; reflexivity.
  - intros (c & x & y & [= <-] & [= <-] & [= <-] & S). discriminate S.
Qed.
Print Assumptions C82_computed_refuted.

(** A cast is a boolean, true only when it is spelled 't': [flag = 'true'::bool] rejects a document whose flag is set. *)
Theorem C82_cast_refuted : exists n d, matched n d = true /\ holds n d /\ where_scan n (-1) [d] = Ok (Some []).
Proof.
  exists (Op (str "=") flag (Cast (LStr (str "true")) (str "bool"))), (person 1 9 true).
  split; [reflexivity|]. split; [|reflexivity].
  exists CEq, (DBool true), (DBool true). repeat split; reflexivity.
Qed.
Print Assumptions C82_cast_refuted.

(** Conditions on which the translation reads a node of the tree as a node of another type: [age = NULL], [1 = 1],
    [(age) > 5], [people.flag AND age > 5], [NOT people.flag] and [age > 5 AND other IS NULL], before any document is
    looked at. *)
Theorem C82_misread_refuted : forall limit ds,
  where_scan (Op (str "=") age (Lit LNull)) limit ds = Err UB /\
  where_scan (Op (str "=") (num 1) (num 1)) limit ds = Err UB /\
  where_scan (Op (str ">") (Paren age) (num 5)) limit ds = Err UB /\
  where_scan (Conj flag (Op (str ">") age (num 5))) limit ds = Err UB /\
  where_scan (Neg flag) limit ds = Err UB /\
  where_scan (Conj (Op (str ">") age (num 5)) Other) limit ds = Err UB.
Proof. intros limit ds. repeat split; reflexivity. Qed.
Print Assumptions C82_misread_refuted.

(** The ids of the parameters are 16 bits wide, and a value is kept under an id that is used a second time: with more
    than 65536 constants a document is returned that satisfies no part of the condition. *)
Theorem C82_many_refuted : exists n d, plain n = true /\ matched n d = true /\
  ~ holds n d /\ where_scan n (-1) [d] = Ok (Some [d]).
Proof.
  destruct many_wrong as (n & P & M & H & W). exists n, one_zero. auto.
Qed.
Print Assumptions C82_many_refuted.

(** C82: a condition of a kind that is not translated is never taken for another one: the statement has no answer. *)
Theorem C82_kinds_partial : forall n limit ds o, foreign n = true -> where_scan n limit ds <> Ok o.
Proof.
  intros n limit ds o F. unfold where_scan. destruct (transform n no_params) as [r|e] eqn:E; [|discriminate].
  destruct (foreign_fails n F _ _ E).
Qed.
Print Assumptions C82_kinds_partial.
Example C82_kinds_example : foreign (Conj (Op (str ">") age (num 5)) (Paren (Neg (Kind age (num 7))))) = true.
Proof. reflexivity. Qed.
