(** C103: what CREATE TABLE, DROP TABLE and DROP INDEX hand to the dispatcher. *)
From Verif Require Import Bytes Outcome ByteOrd CreModel CreSpec CreProofs.
From Coq Require Import Lia.
Local Open Scope Z_scope.

(** A CREATE TABLE whose columns have at most one bound each declares, for the collection its name stands for, exactly the columns
    written, in order, with the types meant. (Missing: several bounds, bounds left out, elements that are not columns; the
    refutations below.) *)
Theorem C103_created_partial : forall q els cs f, declares els cs -> Forall one_bound els -> stands_for q f -> create_table q els = Ok (f, cs).
Proof. exact created. Qed.
Print Assumptions C103_created_partial.

(** A CREATE TABLE with a column of a type that is not one of the database is refused. *)
Theorem C103_refused_partial : forall q els, Forall plain els -> (forall cs, ~ declares els cs) -> create_table q els = Err Throw.
Proof. exact refused. Qed.
Print Assumptions C103_refused_partial.

(** DROP TABLE of one name drops the collection that CREATE TABLE with that name creates, and DROP INDEX the index in it. *)
Theorem C103_dropped_partial : forall q f, stands_for q f ->
  drop_table [q] = Ok f /\ (forall i, (2 <= length q)%nat -> drop_index [q ++ [i]] = Ok (f, i)) /\
  forall els g cs, create_table q els = Ok (g, cs) -> g = f.
Proof.
  intros q f N. split; [now apply dropped|]. split; [intros i L; now apply index_dropped|].
  intros els g cs H. unfold create_table in H. destruct (columns_of els); [|discriminate]. injection H as <- _.
  pose proof (created q [] [] f d_nil (Forall_nil _) N) as C. now injection C.
Qed.
Print Assumptions C103_dropped_partial.

(** Different names stand for different collections. *)
Theorem C103_names : forall q q' f, Forall (fun x => x <> []) q -> Forall (fun x => x <> []) q' -> stands_for q f -> stands_for q' f -> q = q'.
Proof. exact different. Qed.
Print Assumptions C103_names.

(** DECIMAL(300, 2) becomes DECIMAL(44, 2), and a scale above the width is accepted. *)
Theorem C103_decimal_refuted :
  create_table [str "t"] [Column (str "c") (Decimal [MInt 300; MInt 2]) []] = Ok (Full [] [] [] (str "t"), [(str "c", Decimal_of 44 2)]) /\
  create_table [str "t"] [Column (str "c") (Decimal [MInt 2; MInt 9]) []] = Ok (Full [] [] [] (str "t"), [(str "c", Decimal_of 2 9)]).
Proof. split; vm_compute; reflexivity. Qed.
Print Assumptions C103_decimal_refuted.

(** int[2][3] becomes an array of two numbers, int[] an array of 2^64 - 1 of them, and an array of a type nobody knows is accepted. *)
Theorem C103_bounds_refuted : exists els cs cs',
  declares els cs /\ create_table [str "t"] els = Ok (Full [] [] [] (str "t"), cs') /\ cs <> cs' /\
  cs' = [(str "a", Array_of (Kind INTEGER) 2); (str "b", Array_of (Kind INTEGER) 18446744073709551615)] /\
  create_table [str "t"] [Column (str "c") (Named (str "nonsense") [] []) [3]]
    = Ok (Full [] [] [] (str "t"), [(str "c", Array_of (Kind NA) 3)]).
Proof.
  exists [Column (str "a") Int [2; 3]; Column (str "b") Int [-1]],
         [(str "a", Array_of (Array_of (Kind INTEGER) 3) 2); (str "b", List_of (Kind INTEGER))],
         [(str "a", Array_of (Kind INTEGER) 2); (str "b", Array_of (Kind INTEGER) 18446744073709551615)].
  split; [exact (d_col _ _ (Kind INTEGER) [2; 3] _ _ m_int (d_col _ _ (Kind INTEGER) [-1] _ _ m_int d_nil))|].
  split; [vm_compute; reflexivity|]. split; [discriminate|]. split; [reflexivity|vm_compute; reflexivity].
Qed.
Print Assumptions C103_bounds_refuted.

(** A constraint of the table is read as a column; a type called pg_catalog is read past its end; a type called "numeric" in quotes has
    no width; the parts of the name of a type behind the first are not looked at. *)
Theorem C103_elements_refuted :
  create_table [str "t"] [Column (str "c") Int []; Other] = Err UB /\
  create_table [str "t"] [Column (str "c") (Named (str "pg_catalog") [] []) []] = Err UB /\
  create_table [str "t"] [Column (str "c") (Named (str "numeric") [] []) []] = Ok (Full [] [] [] (str "t"), [(str "c", Kind DECIMAL)]) /\
  create_table [str "t"] [Column (str "c") (Named (str "string") [str "foo"] []) []]
    = Ok (Full [] [] [] (str "t"), [(str "c", Kind STRING_LITERAL)]).
Proof. repeat split; vm_compute; reflexivity. Qed.
Print Assumptions C103_elements_refuted.

(** All names of five parts and more create the one collection without a name, which DROP TABLE with that name refuses to drop; of
    several tables named in a DROP TABLE only the first is dropped, whatever the others are. *)
Theorem C103_objects_refuted :
  (forall a b c d e q, create_table (a :: b :: c :: d :: e :: q) [] = Ok (Full [] [] [] [], []) /\
    drop_table [a :: b :: c :: d :: e :: q] = Err Throw) /\
  (forall q r f, stands_for q f -> drop_table (q :: r) = Ok f).
Proof. split; [intros a b c d e q; split; reflexivity|]. intros q r f N. exact (dropped q f N). Qed.
Print Assumptions C103_objects_refuted.

(** The hypotheses are met. *)
Example ex_columns : list element :=
  [Column (str "id") Bigint []; Column (str "name") (Named (str "string") [] []) []; Column (str "p") (Decimal [MInt 10; MInt 2]) [];
   Column (str "v") (Float (Some 30)) [4]].
Example ex_declares : declares ex_columns
  [(str "id", Kind BIGINT); (str "name", Kind STRING_LITERAL); (str "p", Decimal_of 10 2); (str "v", Array_of (Kind DOUBLE) 4)].
Proof.
  apply (d_col _ _ (Kind BIGINT) []); [constructor|]. apply (d_col _ _ (Kind STRING_LITERAL) []); [repeat constructor|].
  apply (d_col _ _ (Decimal_of (Z.to_N 10) (Z.to_N 2)) []); [constructor; lia|].
  apply (d_col _ _ (Kind DOUBLE) [4]); [apply m_double; lia|]. constructor.
Qed.
Example ex_bounds : Forall one_bound ex_columns.
Proof. repeat constructor; cbn; lia. Qed.
Example ex_name : stands_for [str "db"; str "main"; str "t"] (Full [] (str "db") (str "main") (str "t")).
Proof. exists [], (str "db"), (str "main"). repeat split. Qed.
Example ex_run : create_table [str "db"; str "main"; str "t"] ex_columns = Ok (Full [] (str "db") (str "main") (str "t"),
  [(str "id", Kind BIGINT); (str "name", Kind STRING_LITERAL); (str "p", Decimal_of 10 2); (str "v", Array_of (Kind DOUBLE) 4)]).
Proof. exact (C103_created_partial _ _ _ _ ex_declares ex_bounds ex_name). Qed.
Example ex_refused : let els := [Column (str "id") Bigint []; Column (str "s") (Character true) []] in
  Forall plain els /\ (forall cs, ~ declares els cs) /\ create_table [str "t"] els = Err Throw.
Proof.
  cbv zeta. assert (P : Forall plain [Column (str "id") Bigint []; Column (str "s") (Character true) []]) by (repeat constructor).
  assert (D : forall cs, ~ declares [Column (str "id") Bigint []; Column (str "s") (Character true) []] cs).
  { intros cs H. inversion H as [|? ? ? ? ? ? _ H']; subst. inversion H' as [|? ? ? ? ? ? M _]; subst. inversion M. }
  split; [exact P|]. split; [exact D|]. exact (C103_refused_partial [str "t"] _ P D).
Qed.
Example ex_dropped : drop_table [[str "db"; str "main"; str "t"]] = Ok (Full [] (str "db") (str "main") (str "t")) /\
  drop_index [[str "db"; str "main"; str "t"; str "ix"]] = Ok (Full [] (str "db") (str "main") (str "t"), str "ix").
Proof.
  destruct (C103_dropped_partial _ _ ex_name) as (A & B & _). split; [exact A|]. apply (B (str "ix")). cbn [length]. lia.
Qed.
