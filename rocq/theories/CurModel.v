(** The results of a statement as the C interface shows them: components/cursor/cursor.hpp 15-16, 48-96,
    components/cursor/cursor.cpp 13-94; integration/c/main.cpp 119-178 (cursors), 186-192 (ids), 357-372 (strings).
    Simplifications: a document is any value; sorting is a function that orders the documents; the sizes of [std::string] and
    [std::pmr::string] are those of the compiler's library on 64 bits, 32 and 40 bytes; the handles given out are the objects
    themselves. *)
From Verif Require Import Bytes Outcome.
Local Open Scope Z_scope.

Section Cursor.
Context {D : Type}.

Record cursor := { size : N; index : Z; docs : list D }.
(** cursor.cpp 13-60: of documents, of rows or types, of a status or an error *)
Definition of_documents (l : list D) : cursor := {| size := N.of_nat (length l); index := -1; docs := l |}.
Definition of_rows (n : N) : cursor := {| size := n; index := -1; docs := [] |}.
Definition of_status : cursor := {| size := 0; index := -1; docs := [] |}.

(** [index_t] is [int32_t]: one more than its last number is undefined *)
Definition following (i : Z) : res Z := if i =? 2 ^ 31 - 1 then Err UB else Ok (i + 1).
Definition as_size (z : Z) : N := Z.to_N (z mod 2 ^ 64).
(** 71 *)
Definition has_next (c : cursor) : res bool := do i <- following (index c); Ok (as_size i <? size c)%N.
(** 78-83: [at] throws behind the end *)
Definition document_at (c : cursor) (i : N) : res (option D) :=
  if (i <? size c)%N then match nth_error (docs c) (N.to_nat i) with Some d => Ok (Some d) | None => Err Throw end else Ok None.
(** 72-77 *)
Definition next_document (c : cursor) : res (option D * cursor) :=
  do i <- following (index c);
  let c' := {| size := size c; index := i; docs := docs c |} in
  do d <- document_at c' (as_size i); Ok (d, c').
Definition get_document (c : cursor) : res (option D) := document_at c (as_size (if index c <? 0 then 0 else index c)).
(** 91-94 *)
Definition sort (sorter : list D -> list D) (c : cursor) : cursor := {| size := size c; index := -1; docs := sorter (docs c) |}.

(** ** main.cpp 125-157; sorting is a call of the cursor only *)
Inductive call := Size | Has_next | Next | Get | Get_at (i : Z) | Sort (sorter : list D -> list D).
Inductive reply := Number (z : Z) | Truth (b : bool) | Document (d : option D) | Done.
Definition as_int (n : N) : Z := let z := Z.of_N n mod 2 ^ 32 in if z <? 2 ^ 31 then z else z - 2 ^ 32.
Definition step (c : cursor) (x : call) : res (reply * cursor) :=
  match x with
  | Size => Ok (Number (as_int (size c)), c)
  | Has_next => do b <- has_next c; Ok (Truth b, c)
  | Next => do '(d, c') <- next_document c; Ok (Document d, c')
  | Get => do d <- get_document c; Ok (Document d, c)
  | Get_at i => do d <- document_at c (as_size i); Ok (Document d, c)
  | Sort f => Ok (Done, sort f c)
  end.
Fixpoint run (c : cursor) (xs : list call) : res (list reply) :=
  match xs with
  | [] => Ok []
  | x :: r => do '(y, c') <- step c x; do ys <- run c' r; Ok (y :: ys)
  end.
End Cursor.
Arguments cursor : clear implicits.
Arguments call : clear implicits.
Arguments reply : clear implicits.

(** ** Texts: [new char[sizeof(str)]], then [strcpy] up to and with the first zero byte *)
Definition zero : byte := Ascii.zero.
Fixpoint up_to_zero (s : list byte) : list byte :=
  match s with
  | [] => []
  | c :: r => if Ascii.eqb c zero then [] else c :: up_to_zero r
  end.
Definition text (capacity : nat) (s : list byte) : res (list byte) :=
  if (length (up_to_zero s) <? capacity)%nat then Ok (up_to_zero s) else Err UB.
(** 169-178, 186-192, 357-372 *)
Definition error_text (s : list byte) : res (list byte) := text 32 s.
Definition id_text (s : list byte) : res (list byte) := text 32 s.
Definition string_text (s : list byte) : res (list byte) := text 40 s.
