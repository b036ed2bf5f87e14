(** C107: documents of Python programs. *)
From Coq Require Import Lia.
From Verif Require Import Bytes Outcome ByteOrd PyModel PySpec PyProofs.
Local Open Scope Z_scope.

(** What is stored comes back, of any depth: dictionaries, lists, strings, numbers and truth values the same, tuples as lists, bytes as
    their text in base64; whether the compiler builds keys or values first. (Missing: None, integers of more than 64 bits, keys that
    are not strings; refuted below.) *)
Theorem C107_partial : forall F base64 key_first (l : list (py F * py F)), storable (PDict l) ->
  exists n t, to_document base64 key_first l = Ok (n, t) /\ from_document t n = Ok (given_back base64 (PDict l)).
Proof. intros F base64 key_first l S. exact (round_trip base64 key_first l S). Qed.
Print Assumptions C107_partial.

(** None takes the place of what is built next: {"a": None, "b": 5} comes back with a key or another value for "a", and where nothing is
    built any more the field is not to be read. *)
Theorem C107_none_refuted : forall F base64,
  (exists n t, to_document (F := F) base64 true [(PStr (str "a"), PNone); (PStr (str "b"), PInt 5)] = Ok (n, t) /\
    from_document t n = Ok (PDict [(PStr (str "a"), PStr (str "b")); (PStr (str "b"), PInt 5)])) /\
  (exists n t, to_document (F := F) base64 false [(PStr (str "a"), PNone); (PStr (str "b"), PInt 5)] = Ok (n, t) /\
    from_document t n = Ok (PDict [(PStr (str "a"), PStr (str "a")); (PStr (str "b"), PInt 5)])) /\
  (exists n t, to_document (F := F) base64 true [(PStr (str "a"), PList [PNone; PInt 7; PNone])] = Ok (n, t) /\ from_document t n = Err UB /\
    from_document (t ++ [VBool true]) n = Ok (PDict [(PStr (str "a"), PList [PInt 7; PInt 7; PBool true])])).
Proof.
  intros F base64. split; [|split].
  - eexists. eexists. split; [reflexivity|]. vm_compute. reflexivity.
  - eexists. eexists. split; [reflexivity|]. vm_compute. reflexivity.
  - eexists. eexists. split; [reflexivity|]. split; vm_compute; reflexivity.
Qed.
Print Assumptions C107_none_refuted.

(** An integer of more than 64 bits ends the process, a key that is a number throws. *)
Theorem C107_numbers_refuted : forall F base64 kf,
  to_document (F := F) base64 kf [(PStr (str "a"), PInt (2 ^ 63))] = Err UB /\
  to_document (F := F) base64 kf [(PInt 1, PStr (str "a"))] = Err Throw.
Proof. intros F base64 []; split; reflexivity. Qed.
Print Assumptions C107_numbers_refuted.

(** The hypothesis is met. *)
Example ex_doc : list (py nat * py nat) :=
  [(PStr (str "id"), PInt 42);
   (PStr (str "tags"), PTuple [PStr (str "x"); PBool false; PFloat 3%nat]);
   (PStr (str "sub"), PDict [(PStr (str "id"), PList []); (PStr (str "raw"), PBytes (str "ab"))])].
Example ex_storable : storable (PDict ex_doc).
Proof.
  apply (s_dict _ [str "id"; str "tags"; str "sub"]); [reflexivity| |].
  - repeat constructor; cbn; intuition discriminate.
  - repeat constructor; cbn [snd]; try (cbn; lia).
    apply (s_dict _ [str "id"; str "raw"]); [reflexivity| |repeat constructor]. repeat constructor; cbn; intuition discriminate.
Qed.
Example ex_back : forall key_first, exists n t, to_document (@rev byte) key_first ex_doc = Ok (n, t) /\
  from_document t n = Ok (PDict
    [(PStr (str "id"), PInt 42);
     (PStr (str "tags"), PList [PStr (str "x"); PBool false; PFloat 3%nat]);
     (PStr (str "sub"), PDict [(PStr (str "id"), PList []); (PStr (str "raw"), PStr (str "ba"))])]).
Proof. intros kf. exact (C107_partial nat (@rev byte) kf ex_doc ex_storable). Qed.
