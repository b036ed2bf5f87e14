(** C110: keywords are known in any case, and names of tables and columns are the words of the statement. *)
From Verif Require Import Bytes Outcome ByteOrd IdnModel IdnSpec IdnProofs.

(** C110, in full: a word is a keyword if it is one in small letters, and a name otherwise; different names stay different. Missing from
    the theorems: names of more than 63 bytes are only kept in part, see below. *)
Theorem C110_partial : forall s, no_zero s ->
  (In (small s) keywords -> word s = Ok (Keyword (small s))) /\
  (~ In (small s) keywords -> exists name, word s = Ok (Ident name) /\ names (small s) name).
Proof. exact word_right. Qed.
Print Assumptions C110_partial.

(** Words that differ in the case of letters only are the same, however long. *)
Theorem C110_case : forall a b, small a = small b -> word a = word b.
Proof. exact word_case. Qed.
Print Assumptions C110_case.

(** A quoted name keeps its letters and is no keyword. *)
Theorem C110_quoted_partial : forall s, no_zero s -> s <> [] -> exists name, quoted s = Ok (Ident name) /\ names s name.
Proof. exact quoted_right. Qed.
Print Assumptions C110_quoted_partial.

Example C110_sample : word (str "SeLeCt") = Ok (Keyword (str "select")) /\ word (str "zone") = Ok (Keyword (str "zone")) /\
  word (str "ABORT") = Ok (Keyword (str "abort")) /\ word (str "Orders_2") = Ok (Ident (str "orders_2")) /\
  quoted (str "Select") = Ok (Ident (str "Select")).
Proof. vm_compute. repeat split; reflexivity. Qed.

(** Two names that differ in the 64th byte only are one; a long name is cut before a character of several bytes. *)
Theorem C110_long_refuted :
  (exists a b, a <> b /\ small a <> small b /\ word a = word b /\ quoted a = quoted b) /\
  (let s := repeat "a"%char 62 ++ [byte_of_N 195; byte_of_N 164; "b"%char] in word s = Ok (Ident (repeat "a"%char 62))).
Proof.
  split; [|vm_compute; reflexivity].
  exists (repeat "a"%char 63 ++ str "x"), (repeat "a"%char 63 ++ str "y").
  split; [intros E; apply app_inv_head in E; discriminate E|]. split; [vm_compute; discriminate|vm_compute; split; reflexivity].
Qed.
Print Assumptions C110_long_refuted.
