(** C105: names of collections and ids of tables in the catalogue. *)
From Verif Require Import Bytes Outcome TIdModel TIdSpec TIdProofs.

(** The id of a collection gives its name back exactly where there is neither uid nor schema, or the schema is called like the
    database: otherwise the two are exchanged. *)
Theorem C105_back_partial : forall f, plain_name f -> (to_full (of_full f) = f <-> (uid f = [] /\ schema f = []) \/ schema f = database f).
Proof. exact back. Qed.
Print Assumptions C105_back_partial.

(** Different collections have different ids. *)
Theorem C105_apart : forall f g, plain_name f -> plain_name g -> of_full f = of_full g -> f = g.
Proof. exact apart. Qed.
Print Assumptions C105_apart.

(** The text of an id is read back as the id. (Missing: parts with dots, ids without namespace, empty names; refuted below.) *)
Theorem C105_text_partial : forall t, readable t -> parse (to_string t) = Ok t.
Proof. exact read_back. Qed.
Print Assumptions C105_text_partial.

(** The collection s.c of the database d is given back as the collection d.c of the database s. *)
Theorem C105_back_refuted : to_full (of_full (Full [] (str "d") (str "s") (str "c"))) = Full [] (str "s") (str "d") (str "c") /\
  to_full (of_full (Full (str "u") (str "d") [] (str "c"))) = Full (str "u") [] (str "d") (str "c").
Proof. split; vm_compute; reflexivity. Qed.
Print Assumptions C105_back_refuted.

(** An id without namespace is read back as one with an empty part, an empty name as that of the namespace, a dot in a name as the end
    of a part, and the empty text ends in undefined behaviour. *)
Theorem C105_text_refuted :
  parse (to_string (Id [] (str "t"))) = Ok (Id [[]] (str "t")) /\
  parse (to_string (Id [str "d"] [])) = Ok (Id [] (str "d")) /\
  parse (to_string (Id [str "d.e"] (str "t"))) = Ok (Id [str "d"; str "e"] (str "t")) /\
  to_string (Id [str "d.e"] (str "t")) = to_string (Id [str "d"; str "e"] (str "t")) /\
  parse [] = Err UB.
Proof. repeat split; vm_compute; reflexivity. Qed.
Print Assumptions C105_text_refuted.

(** The hypotheses are met. *)
Example ex_back : to_full (of_full (Full [] (str "db") [] (str "books"))) = Full [] (str "db") [] (str "books").
Proof.
  apply C105_back_partial; [|left; split; reflexivity].
  repeat split; intros H; cbn in H; repeat (destruct H as [H|H]; [discriminate H|]); exact H.
Qed.
Example ex_text : parse (to_string (Id [str "db"; []; str "main"] (str "books"))) = Ok (Id [str "db"; []; str "main"] (str "books")).
Proof.
  apply C105_text_partial. split; [discriminate|]. split; [|split; [|discriminate]].
  - repeat constructor; intros H; cbn in H; repeat (destruct H as [H|H]; [discriminate H|]); exact H.
  - intros H; cbn in H; repeat (destruct H as [H|H]; [discriminate H|]); exact H.
Qed.
