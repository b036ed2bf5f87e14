(** Property C13: JSON-pointer keys. *)
From Verif Require Import Bytes Outcome JsonPtrModel JsonPtrSpec JsonPtrProofs.

(** Any field name, written with the standard escapes, is decoded to itself. *)
Theorem C13_escaped_name_decodes : forall k, unescape_key (esc k) = Ok (Some k).
Proof. exact unescape_esc. Qed.
Print Assumptions C13_escaped_name_decodes.

(** On every string the decoder finishes, and it answers with a key exactly when the string is a
    well-formed encoding of that key; anything else is rejected as an invalid pointer. *)
Theorem C13_decoder_exact : forall s, exists o, unescape_key s = Ok o /\ (forall k, o = Some k <-> unesc s k).
Proof. exact unescape_spec. Qed.
Print Assumptions C13_decoder_exact.

(** A path of arbitrary field names (also empty ones, also names with slashes and tildes) written as a
    pointer is cut back into exactly the encodings of these names, both when the whole path is
    followed and when the last name is separated from its container. *)
Theorem C13_pointer_splits_into_names :
  (forall ks, raw_keys (to_pointer ks) = map esc ks) /\
  (forall ks k, container_split (to_pointer (ks ++ [k])) = Ok (to_pointer ks, esc k)).
Proof. exact (conj raw_keys_pointer container_split_pointer). Qed.
Print Assumptions C13_pointer_splits_into_names.

Example C13_case :
  unescape_key (str "a~1b~0~01") = Ok (Some (str "a/b~~1")) /\ unescape_key (str "a~2") = Ok None /\
  unescape_key (str "a~") = Ok None /\ raw_keys (str "/x//y~1z") = [str "x"; []; str "y~1z"] /\
  container_split (str "/x//y~1z") = Ok (str "/x/", str "y~1z").
Proof. repeat split. Qed.
