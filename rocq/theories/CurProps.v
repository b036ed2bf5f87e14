(** C106: results through the C interface. *)
From Coq Require Import Permutation Lia.
From Verif Require Import Bytes Outcome CurModel CurSpec CurProofs.
Local Open Scope Z_scope.

(** Whatever calls are made, in whatever order: a cursor of documents answers as a list of which documents are taken one after the other.
    (Missing: rows of tables, the refutation below; more than 2^31 calls.) *)
Theorem C106_partial : forall D (l : list D) xs, Forall allowed xs -> Z.of_nat (length xs) <= 2 ^ 31 -> Z.of_nat (length l) < 2 ^ 31 ->
  run (of_documents l) xs = Ok (answers l 0 xs).
Proof. exact started. Qed.
Print Assumptions C106_partial.

(** Texts are handed over unchanged exactly when they have no zero byte and are shorter than the buffer: 32 bytes for messages, 40 for
    strings of documents. *)
Theorem C106_text_partial : forall s,
  (error_text s = Ok s <-> ~ In zero s /\ (length s < 32)%nat) /\
  (id_text s = Ok s <-> ~ In zero s /\ (length s < 32)%nat) /\
  (string_text s = Ok s <-> ~ In zero s /\ (length s < 40)%nat).
Proof. intros s. split; [apply text_exact|]. split; apply text_exact. Qed.
Print Assumptions C106_text_partial.

(** Every longer text without a zero byte is written past the end of its buffer. *)
Theorem C106_text_refuted : forall s, ~ In zero s ->
  ((32 <= length s)%nat -> error_text s = Err UB) /\ ((40 <= length s)%nat -> string_text s = Err UB).
Proof.
  intros s Z. split; intros L; unfold error_text, string_text; rewrite texts by assumption;
    match goal with |- context [Nat.ltb ?a ?b] => destruct (Nat.ltb_spec a b); [lia|reflexivity] end.
Qed.
Print Assumptions C106_text_refuted.

(** A cursor of rows says there is a next one and throws when it is asked for, whatever the number of rows. *)
Theorem C106_rows_refuted : forall D n, (0 < n)%N ->
  has_next (of_rows (D := D) n) = Ok true /\ next_document (of_rows (D := D) n) = Err Throw /\ get_document (of_rows (D := D) n) = Err Throw.
Proof.
  intros D n H.
  assert (A : document_at (of_rows (D := D) n) 0 = Err Throw).
  { unfold document_at, of_rows. cbn [size docs]. destruct (N.ltb_spec 0 n); [reflexivity|lia]. }
  split; [|split].
  - unfold has_next. change (following (index (of_rows (D := D) n))) with (@Ok Z 0). cbn [rbind]. change (as_size 0) with 0%N.
    cbn [of_rows size]. destruct (N.ltb_spec 0 n); [reflexivity|lia].
  - unfold next_document. change (following (index (of_rows (D := D) n))) with (@Ok Z 0). cbn [rbind]. change (as_size 0) with 0%N.
    unfold document_at in *. cbn [of_rows size docs] in *. rewrite A. reflexivity.
  - exact A.
Qed.
Print Assumptions C106_rows_refuted.

(** The hypotheses are met: two documents, read to the end and beyond. *)
Example ex_run : run (of_documents [10; 20]%nat) [Size; Has_next; Get; Next; Get; Has_next; Next; Has_next; Next; Get_at (-1); Get_at 1; Sort (@rev nat); Next]
  = Ok [Number 2; Truth true; Document (Some 10); Document (Some 10); Document (Some 10); Truth true; Document (Some 20); Truth false;
        Document None; Document None; Document (Some 20); Done; Document (Some 20)]%nat.
Proof.
  rewrite C106_partial; [reflexivity| | |].
  - repeat constructor; cbn [allowed]; try lia; try discriminate. intros l. symmetry. apply Permutation_rev.
  - cbn [length]. lia.
  - cbn [length]. lia.
Qed.
(** A message of the parser is longer than the buffer. *)
Example ex_message : error_text (str "Incorrect modifiers for DECIMAL, width and scale required") = Err UB.
Proof. vm_compute. reflexivity. Qed.
Example ex_text : error_text (str "collection not exists") = Ok (str "collection not exists").
Proof. vm_compute. reflexivity. Qed.
