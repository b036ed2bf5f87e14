(** Documents in the storage format (C10). *)
From Verif Require Import Bytes Outcome MsgpackModel TapeModel TapeSpec DocPackModel DocPackSpec DocPackProofs.
Local Open Scope N_scope.

(** C10: a document that is packed and read back has the same content, of any depth, with every integer as one of 64 bits.
    The bytes after it are left for the next reader.  [storable] excludes what is refuted below and the floating point
    numbers, which are not modelled: [pf] and [w] stand for what is done with them; [nf] for the order in which the
    compiler evaluates two arguments. *)
Theorem C10_round_trip_partial : forall pf w nf d t gs rest,
  holds d t (CObj gs) -> storable (CObj gs) = true -> text_size (CObj gs) < 2 ^ 56 ->
  exists bytes m t' d', pack_tree pf d t = Ok bytes /\ unpack (bytes ++ rest) = Some (m, rest) /\
    to_document w nf m = Ok (t', d') /\ holds d' t' (all64 (CObj gs)).
Proof. exact pack_round_trip. Qed.
Print Assumptions C10_round_trip_partial.

(** {"_id": 7, "tags": ["x", null, true], "in": {"n": -300}} on a tape. *)
Definition ex_tape : doc :=
  build_all {| tape := []; sbuf := [] |}
    [(0, SString (str "_id")); (0, SInt U8 7); (0, SString (str "tags")); (0, SString (str "x")); (0, SNull); (0, SBool true);
     (0, SString (str "in")); (0, SString (str "n")); (0, SInt I16 (-300))].
Definition ex_tree : tree := TObj [(0, TLeaf 1); (2, TArr [TLeaf 3; TLeaf 4; TLeaf 5]); (6, TObj [(7, TLeaf 8)])]%nat.
Definition ex_fields : list (list byte * content) :=
  [(str "_id", CScalar (SInt U8 7)); (str "tags", CArr [CScalar (SString (str "x")); CScalar SNull; CScalar (SBool true)]);
   (str "in", CObj [(str "n", CScalar (SInt I16 (-300)))])].
Example C10_example : holds ex_tape ex_tree (CObj ex_fields) /\ storable (CObj ex_fields) = true /\ text_size (CObj ex_fields) < 2 ^ 56 /\
  exists b, pack_tree (fun _ _ => Err Throw) ex_tape ex_tree = Ok b /\ length b = 25%nat.
Proof.
  split; [repeat constructor|]. split; [reflexivity|]. split; [reflexivity|]. eexists. split; vm_compute; reflexivity.
Qed.

(** A 128 bit integer packs nothing: the bytes cannot be read at all. *)
Theorem C10_hugeint_refuted : forall pf, exists d t gs bytes, holds d t (CObj gs) /\ pack_tree pf d t = Ok bytes /\ unpack bytes = None.
Proof.
  intros pf. exists (build_all {| tape := []; sbuf := [] |} [(0, SString (str "a")); (0, SInt I128 5)]), (TObj [(0%nat, TLeaf 1)]), [(str "a", CScalar (SInt I128 5))].
  eexists. split; [repeat constructor|]. split; [vm_compute; reflexivity|].
 vm_compute. reflexivity.
Qed.
Print Assumptions C10_hugeint_refuted.

Definition large_tape : doc := build_all {| tape := []; sbuf := [] |} [(0, SString (str "a")); (0, SInt I64 (2 ^ 57))].
(** An int64 of 2^57 is written and read back, but what is in the new document cannot be read as a number of any type. *)
Theorem C10_large_refuted : forall pf w nf, exists d t gs bytes m t' d',
  holds d t (CObj gs) /\ gs = [(str "a", CScalar (SInt I64 (2 ^ 57)))] /\
  pack_tree pf d t = Ok bytes /\ unpack bytes = Some (m, []) /\ to_document w nf m = Ok (t', d') /\
  exists i j, t' = TObj [(i, TLeaf j)] /\ forall k, get_int k d' j = Ok INCORRECT_TYPE.
Proof.
  intros pf w nf. exists large_tape, (TObj [(0%nat, TLeaf 1)]), [(str "a", CScalar (SInt I64 (2 ^ 57)))].
  assert (H : holds large_tape (TObj [(0%nat, TLeaf 1)]) (CObj [(str "a", CScalar (SInt I64 (2 ^ 57)))])).
  { constructor. constructor; [vm_compute; repeat split| |constructor]. constructor. vm_compute. repeat split. }
  destruct nf.
  - do 4 eexists. split; [exact H|]. split; [reflexivity|]. split; [vm_compute; reflexivity|]. split; [vm_compute; reflexivity|].
    split; [vm_compute; reflexivity|]. do 2 eexists. split; [reflexivity|]. intros []; vm_compute; reflexivity.
  - do 4 eexists. split; [exact H|]. split; [reflexivity|]. split; [vm_compute; reflexivity|]. split; [vm_compute; reflexivity|].
    split; [vm_compute; reflexivity|]. do 2 eexists. split; [reflexivity|]. intros []; vm_compute; reflexivity.
Qed.
Print Assumptions C10_large_refuted.

(** The type of a number is not kept: a stored int64 5 comes back as an unsigned number. *)
Theorem C10_type_refuted : forall pf w nf, exists d t bytes m t' d',
  holds d t (CObj [(str "a", CScalar (SInt I64 5))]) /\ pack_tree pf d t = Ok bytes /\ unpack bytes = Some (m, []) /\
  to_document w nf m = Ok (t', d') /\ holds d' t' (CObj [(str "a", CScalar (SInt U64 5))]).
Proof.
  intros pf w nf. exists (build_all {| tape := []; sbuf := [] |} [(0, SString (str "a")); (0, SInt I64 5)]), (TObj [(0%nat, TLeaf 1)]).
  assert (H : holds (build_all {| tape := []; sbuf := [] |} [(0, SString (str "a")); (0, SInt I64 5)]) (TObj [(0%nat, TLeaf 1)]) (CObj [(str "a", CScalar (SInt I64 5))])) by repeat constructor.
  destruct (pack_round_trip pf w nf _ _ _ [] H eq_refl eq_refl) as (b & m & t' & d' & P1 & P2 & P3 & P4). rewrite app_nil_r in P2. exists b, m, t', d'. auto.
Qed.
Print Assumptions C10_type_refuted.
