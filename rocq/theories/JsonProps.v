(** Documents as JSON text (C87). *)
From Verif Require Import Bytes Outcome ByteOrd GlobModel.
From Verif Require Import TapeModel TapeSpec DocPackModel DocPackSpec JsonModel JsonSpec JsonProofs.
Local Open Scope N_scope.

(** C87: the text of a document, of any depth, is JSON, and read as JSON it means the content of the document.
    [printable] excludes what is refuted below and the floating point numbers, which are not modelled ([ft] stands for
    their text). *)
Theorem C87_text_partial : forall ft d t v, holds d t v -> printable v = true ->
  exists s, print ft d t = Ok s /\ read_json s = Some (meaning v).
Proof. exact text_ok. Qed.
Print Assumptions C87_text_partial.

(** C87: a document made from the value that the text means has the same content, with every integer as one of 64 bits.
    [nf] is the order in which the compiler evaluates two arguments. *)
Theorem C87_load_partial : forall nf gs, printable (CObj gs) = true -> storable (CObj gs) = true -> text_size (CObj gs) < 2 ^ 56 ->
  exists t d, load_document nf (meaning (CObj gs)) = Ok (t, d) /\ holds d t (long (CObj gs)).
Proof. exact load_ok. Qed.
Print Assumptions C87_load_partial.

(** {"_id": 7, "tags": ["x", null, true], "in": {"n": -300}, "no": []} on a tape. *)
Definition ex_tape : doc :=
  build_all {| tape := []; sbuf := [] |}
    [(0, SString (str "_id")); (0, SInt U8 7); (0, SString (str "tags")); (0, SString (str "x")); (0, SNull); (0, SBool true);
     (0, SString (str "in")); (0, SString (str "n")); (0, SInt I16 (-300)); (0, SString (str "no"))].
Definition ex_tree : tree := TObj [(0, TLeaf 1); (2, TArr [TLeaf 3; TLeaf 4; TLeaf 5]); (6, TObj [(7, TLeaf 8)]); (9, TArr [])]%nat.
Definition ex_fields : list (list byte * content) :=
  [(str "_id", CScalar (SInt U8 7)); (str "tags", CArr [CScalar (SString (str "x")); CScalar SNull; CScalar (SBool true)]);
   (str "in", CObj [(str "n", CScalar (SInt I16 (-300)))]); (str "no", CArr [])].
Example C87_example : holds ex_tape ex_tree (CObj ex_fields) /\ printable (CObj ex_fields) = true /\
  storable (CObj ex_fields) = true /\ text_size (CObj ex_fields) < 2 ^ 56 /\
  print (fun _ _ => Err Throw) ex_tape ex_tree = Ok (str "{""_id"":7,""tags"":[""x"",null,true],""in"":{""n"":-300},""no"":[]}").
Proof. split; [repeat constructor|]. repeat split; vm_compute; reflexivity. Qed.

(** Finding: an integer of 64 bits that does not fit in 32 is written as another number. *)
Theorem C87_wide_refuted : forall ft d i k z, k = I64 \/ k = U64 -> reads d i (SInt k z) -> fits (if signed k then I32 else U32) z = false ->
  exists s z', print ft d (TLeaf i) = Ok s /\ read_json s = Some (JInt z') /\ z' <> z.
Proof. exact wide_number. Qed.
Print Assumptions C87_wide_refuted.
Example C87_wide_example : exists d, reads d 0 (SInt I64 5000000000) /\ print (fun _ _ => Err Throw) d (TLeaf 0) = Ok (str "705032704").
Proof. exists (build 0 {| tape := []; sbuf := [] |} (SInt I64 5000000000)). repeat split; vm_compute; reflexivity. Qed.

(** Finding: the text of a document with a 128 bit integer is not JSON. *)
Theorem C87_huge_refuted : forall ft d i z, reads d i (SInt I128 z) -> exists s, print ft d (TLeaf i) = Ok s /\ read_json s = None.
Proof. exact huge_number. Qed.
Print Assumptions C87_huge_refuted.

Definition one_field (s : list byte) : doc := build_all {| tape := []; sbuf := [] |} [(0, SString (str "a")); (0, SString s)].
Definition one_tree : tree := TObj [(0%nat, TLeaf 1)].
(** Finding: a quotation mark in a string is not escaped.  A string can bring further fields into the document that is read
    back. *)
Theorem C87_quote_refuted : forall ft, exists s text, holds (one_field s) one_tree (CObj [(str "a", CScalar (SString s))]) /\
  print ft (one_field s) one_tree = Ok text /\ read_json text = Some (JObj [(str "a", JStr (str "x")); (str "admin", JBool true); (str "b", JStr (str "y"))]).
Proof.
  intros ft. exists (str "x"",""admin"":true,""b"":""y"). eexists. split; [repeat constructor|]. split; [vm_compute; reflexivity|]. reflexivity.
Qed.
Print Assumptions C87_quote_refuted.
(** Finding: nor is a backslash: the string comes back as another one. *)
Theorem C87_backslash_refuted : forall ft, exists s s' text, holds (one_field s) one_tree (CObj [(str "a", CScalar (SString s))]) /\
  print ft (one_field s) one_tree = Ok text /\ read_json text = Some (JObj [(str "a", JStr s')]) /\ s' <> s.
Proof.
  intros ft. exists (str "C:\new"). do 2 eexists. split; [repeat constructor|]. split; [vm_compute; reflexivity|]. split; [vm_compute; reflexivity|]. discriminate.
Qed.
Print Assumptions C87_backslash_refuted.
(** Finding: nor a control character: the text of a document with a line break is not JSON. *)
Theorem C87_control_refuted : forall ft, exists s text, holds (one_field s) one_tree (CObj [(str "a", CScalar (SString s))]) /\
  print ft (one_field s) one_tree = Ok text /\ read_json text = None.
Proof. intros ft. exists [byte_of_N 97; byte_of_N 10; byte_of_N 98]. eexists. split; [repeat constructor|]. split; [vm_compute; reflexivity|]. reflexivity. Qed.
Print Assumptions C87_control_refuted.

(** Finding: the types of integers are not kept: what is read back does not have the content that was written, though the
    comparison of documents looks at the types. *)
Theorem C87_types_refuted : forall ft nf, exists d t v text j t' d', holds d t v /\ printable v = true /\
  print ft d t = Ok text /\ read_json text = Some j /\ load_document nf j = Ok (t', d') /\ ~ holds d' t' v.
Proof.
  intros ft nf. exists (build_all {| tape := []; sbuf := [] |} [(0, SString (str "a")); (0, SInt I32 5)]), one_tree, (CObj [(str "a", CScalar (SInt I32 5))]).
  destruct nf; do 4 eexists; (split; [repeat constructor|]); (split; [reflexivity|]); (split; [vm_compute; reflexivity|]); (split; [vm_compute; reflexivity|]);
    (split; [vm_compute; reflexivity|]); intros H; inversion H as [|? ? F|]; subst; inversion F as [|? ? ? ? ? ? ? L]; subst; inversion L as [? ? R| |]; subst; destruct R as [T _]; vm_compute in T; discriminate T.
Qed.
Print Assumptions C87_types_refuted.

(** Finding: JSON text that is not an object is undefined behaviour instead of an error. *)
Theorem C87_array_refuted : forall nf, exists s j, read_json s = Some j /\ load_document nf j = Err UB.
Proof. intros nf. exists (str "[1, 2]"), (JArr [JInt 1; JInt 2]). split; reflexivity. Qed.
Print Assumptions C87_array_refuted.
