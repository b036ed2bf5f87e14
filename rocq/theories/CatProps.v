(** Namespaces and tables of the catalogue: the theorems. *)
From Verif Require Import Bytes Outcome ByteOrd OMap TrieModel TrieProofs CSchemaModel CatModel CatSpec CatProofs.

(** C33.  After any history in which only namespaces with nothing below them are dropped, no call
    throws, and a namespace exists exactly when it, or a namespace below it, was created and it was not
    dropped since.  Missing: dropping a namespace while others are below it (see the refutations). *)
Theorem C33_history_partial :
  forall M (h : list (cop M)), leaf_drops empty_world h ->
    calm (snd (crun empty_trie h)) /\
    forall p, ns_exists (fst (crun empty_trie h)) p = true <->
      p <> [] /\ exists h1 l h2, h = h1 ++ NsCreate (p ++ l) :: h2 /\ ~ In (NsDrop p) h2.
Proof. intros M. exact c33_history. Qed.
Print Assumptions C33_history_partial.

(** C33.  After any history at all in which no call throws, the namespaces are those of the
    specification: a creation adds the namespace and those above it up to the nearest that is there, a
    drop removes that one, and nothing else changes. *)
Theorem C33_set_partial :
  forall M (h : list (cop M)) c xs, crun empty_trie h = (c, xs) -> calm xs ->
    forall p, ns_exists c p = there (fst (wrun empty_world h)) p.
Proof. intros M. exact c33_set. Qed.
Print Assumptions C33_set_partial.

(** C33.  The children listed are the namespaces one step below, each once. *)
Theorem C33_children_partial :
  forall M (h : list (cop M)), leaf_drops empty_world h ->
    forall p, NoDup (list_child_namespaces (fst (crun empty_trie h)) p) /\
    forall q, In q (list_child_namespaces (fst (crun empty_trie h)) p) <->
      ns_exists (fst (crun empty_trie h)) p = true /\ ns_exists (fst (crun empty_trie h)) q = true /\
      exists e, q = p ++ [e].
Proof. intros M. exact c33_children. Qed.
Print Assumptions C33_children_partial.

(** C33.  Whatever happened before, dropping a namespace with nothing below it frees the node of the
    trie while iterators over it are still used: always then, and never otherwise. *)
Theorem C33_drop_refuted :
  forall M (h : list (cop M)) p, leaf_drops empty_world h ->
    let c := fst (crun empty_trie h) in
    snd (drop_namespace c p) = Freed <->
    ns_exists c p = true /\ forall q, below p q -> ns_exists c q = false.
Proof. intros M h p. exact (c33_drop h p). Qed.
Print Assumptions C33_drop_refuted.

Notation a := (str "a"). Notation b := (str "b"). Notation d := (str "d"). Notation e := (str "e").

(** C33.  After dropping a namespace that has another below it, creating an unrelated namespace throws,
    though the namespace is there afterwards. *)
Theorem C33_orphan_refuted :
  exists c, crun (M := N) empty_trie [NsCreate [a; b]; NsDrop [a]; NsCreate [d]]
            = (c, [(Done, NoMistake); (Done, NoMistake); (Thrown, NoMistake)]) /\
    ns_exists c [d] = true /\ ns_exists c [a; b] = true /\ ns_exists c [a] = false.
Proof. eexists. split; [vm_compute; reflexivity|]. repeat split; vm_compute; reflexivity. Qed.
Print Assumptions C33_orphan_refuted.

(** C33.  When the creation throws half-way, the namespace asked for is not there but one above it is. *)
Theorem C33_half_refuted :
  exists c, crun (M := N) empty_trie [NsCreate [a; b]; NsDrop [a]; NsCreate [d; e]]
            = (c, [(Done, NoMistake); (Done, NoMistake); (Thrown, NoMistake)]) /\
    ns_exists c [d; e] = false /\ ns_exists c [d] = true.
Proof. eexists. split; [vm_compute; reflexivity|]. repeat split; vm_compute; reflexivity. Qed.
Print Assumptions C33_half_refuted.

(** C33.  A dropped namespace is still listed as a child while another is below it. *)
Theorem C33_children_refuted :
  exists c, crun (M := N) empty_trie [NsCreate [a; b; d]; NsDrop [a; b]]
            = (c, [(Done, NoMistake); (Done, NoMistake)]) /\
    list_child_namespaces c [a] = [[a; b]] /\ ns_exists c [a; b] = false.
Proof. eexists. split; [vm_compute; reflexivity|]. repeat split; vm_compute; reflexivity. Qed.
Print Assumptions C33_children_refuted.

(** C33.  A namespace that does not exist is reported to have children: those of the nearest above it. *)
Theorem C33_has_child_refuted :
  exists c, crun (M := N) empty_trie [NsCreate [a; b]] = (c, [(Done, NoMistake)]) /\
    ns_exists c [a; d] = false /\ has_child_namespaces c [a; d] = true.
Proof. eexists. split; [vm_compute; reflexivity|]. repeat split; vm_compute; reflexivity. Qed.
Print Assumptions C33_has_child_refuted.

(** C74.  After any history in which no call throws, the tables of every namespace, the mistakes
    reported, the listing, the metadata and the format are those of the specification: a call changes
    the entry of one kind, namespace and name (or two for a rename), and a namespace that is dropped
    takes its tables with it. *)
Theorem C74_tables_partial :
  forall M (h : list (cop M)) c xs, crun empty_trie h = (c, xs) -> calm xs ->
    let w := fst (wrun empty_world h) in
    map snd xs = snd (wrun empty_world h) /\
    forall p,
      (forall k n, table_exists k c p n = match t_at w k p n with Some _ => true | None => false end) /\
      (NoDup (list_tables c p) /\ forall n, In n (list_tables c p) <-> t_at w Regular p n <> None) /\
      (forall n m, t_at w Regular p n = Some m -> get_table_schema c p n = Ok m) /\
      (there w p = true -> forall n, get_table_format c p n =
        Ok (match t_at w Regular p n, t_at w Computing p n with
            | Some _, _ => Columns
            | None, Some _ => Documents
            | None, None => Undefined
            end)).
Proof. intros M. exact c74_tables. Qed.
Print Assumptions C74_tables_partial.

(** C74.  A namespace dropped and created again has no tables. *)
Theorem C74_again :
  forall M (h : list (cop M)) p k n, leaf_drops empty_world (h ++ [NsDrop p; NsCreate p]) ->
    table_exists k (fst (crun empty_trie (h ++ [NsDrop p; NsCreate p]))) p n = false.
Proof. intros M. exact c74_again. Qed.
Print Assumptions C74_again.

(** C74.  A regular and a computing table of one name exist together in one namespace; the format given
    is that of the regular one, so dropping that one changes the format of the name. *)
Theorem C74_both_refuted :
  exists c c', crun empty_trie [NsCreate [a]; TCreate Regular [a] b 1%N; TCreate Computing [a] b 2%N]
             = (c, [(Done, NoMistake); (Done, NoMistake); (Done, NoMistake)]) /\
    table_exists Regular c [a] b = true /\ table_exists Computing c [a] b = true /\
    get_table_format c [a] b = Ok Columns /\
    c' = drop_table Regular c [a] b /\ get_table_format c' [a] b = Ok Documents.
Proof.
  eexists. eexists. split; [vm_compute; reflexivity|]. split; [vm_compute; reflexivity|].
  split; [vm_compute; reflexivity|]. split; [vm_compute; reflexivity|]. split; [reflexivity|vm_compute; reflexivity].
Qed.
Print Assumptions C74_both_refuted.

(** C74.  Renaming a table that is not there reports that a table already exists. *)
Theorem C74_rename_refuted :
  exists c, crun (M := N) empty_trie [NsCreate [a]; TRename Regular [a] b d]
            = (c, [(Done, NoMistake); (Done, AlreadyExists)]) /\
    table_exists Regular c [a] b = false /\ table_exists Regular c [a] d = false.
Proof. eexists. split; [vm_compute; reflexivity|]. repeat split; vm_compute; reflexivity. Qed.
Print Assumptions C74_rename_refuted.

(** C74.  Listing the tables of a namespace leaves out the computing ones. *)
Theorem C74_list_refuted :
  exists c, crun empty_trie [NsCreate [a]; TCreate Computing [a] b 1%N]
            = (c, [(Done, NoMistake); (Done, NoMistake)]) /\
    table_exists Computing c [a] b = true /\ list_tables c [a] = [].
Proof. eexists. split; [vm_compute; reflexivity|]. repeat split; vm_compute; reflexivity. Qed.
Print Assumptions C74_list_refuted.

(** C74.  Asking for the format of a table of a missing namespace throws, while a table missing from a
    namespace that is there has an undefined format, and asking for its metadata reads past the end. *)
Theorem C74_format_refuted :
  exists c, crun (M := N) empty_trie [NsCreate [a]] = (c, [(Done, NoMistake)]) /\
    get_table_format c [b] d = Err Throw /\ get_table_format c [a] d = Ok Undefined /\
    get_table_schema c [a] d = Err UB.
Proof. eexists. split; [vm_compute; reflexivity|]. repeat split; vm_compute; reflexivity. Qed.
Print Assumptions C74_format_refuted.

(** The hypotheses are met by a history with several levels, in which a namespace with tables is
    dropped and created again. *)
Definition story : list (cop N) :=
  [NsCreate [a; b; d]; TCreate Regular [a; b; d] e 7%N; TCreate Regular [a] e 8%N; TRename Regular [a] e b;
   NsDrop [a; b; d]; NsCreate [a; b; d]; NsCreate [e]; NsDrop [e]].
Example C33_story_leaf : leaf_drops empty_world story.
Proof.
  cbn [story leaf_drops]. repeat (split; [exact I || (intros q [x [l ->]]; vm_compute; reflexivity)|]).
  exact I.
Qed.
Example C33_story : exists c, crun empty_trie story =
    (c, [(Done, NoMistake); (Done, NoMistake); (Done, NoMistake); (Done, NoMistake);
         (Freed, NoMistake); (Done, NoMistake); (Done, NoMistake); (Freed, NoMistake)]) /\
  list_tables c [a] = [b] /\ list_tables c [a; b; d] = [] /\ ns_exists c [a; b] = true /\ ns_exists c [e] = false /\
  get_table_schema c [a] b = Ok 8%N.
Proof. eexists. split; [vm_compute; reflexivity|]. repeat split; vm_compute; reflexivity. Qed.
Example C33_story_inner : calm (snd (crun (M := N) empty_trie [NsCreate [a; b]; NsDrop [a]; NsCreate [a]])).
Proof. vm_compute. repeat constructor; discriminate. Qed.
