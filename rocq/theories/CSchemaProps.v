(** C34: a schemaless collection lists a field type iff more values of it were added than removed. *)
From Verif Require Import Bytes Outcome ByteOrd TrieModel CSchemaModel CSchemaSpec CSchemaProofs.

(** After any history in which no call throws, in which the collection never held 2^64 values, and
    in which a field whose name begins another field's name only has values of one kind: the listing
    of a field gives each kind with more values appended than dropped, once, and nothing else. *)
Theorem C34_counts_partial : forall h s outs f,
  run empty_schema h = (s, outs) -> ~ In Thrown outs ->
  plain_prefixes h -> (N.of_nat (length h) < 2 ^ 64)%N ->
  is_field h f ->
  exists l, find_field_versions s f = Ok l /\ NoDup (map ty_kind l) /\
            forall k, In k (map ty_kind l) <-> (0 < count h f k)%N.
Proof.
  intros h s outs f Hr Ho Hp Hl Hf. exact (proj2 (inv_lists s h f (inv_reach h s outs Hr Ho Hp Hl)) Hf).
Qed.
Print Assumptions C34_counts_partial.

(** The count is the number of values appended less the number dropped, when no drop takes away
    values that are not there. *)
Theorem C34_count_is_difference : forall h f k, balanced h ->
  count h f k = (appended h f k - dropped h f k)%N.
Proof. intros h f k Hb. exact (balanced_count h Hb f k). Qed.
Print Assumptions C34_count_is_difference.

(** The struct of newest types only shows types that have values. *)
Theorem C34_struct_sound : forall h s outs f t,
  run empty_schema h = (s, outs) -> ~ In Thrown outs ->
  plain_prefixes h -> (N.of_nat (length h) < 2 ^ 64)%N ->
  In (f, t) (latest_types_struct s) -> (0 < count h f (ty_kind t))%N.
Proof.
  intros h s outs f t Hr Ho Hp Hl HI. exact (struct_sound s h f t (inv_reach h s outs Hr Ho Hp Hl) HI).
Qed.
Print Assumptions C34_struct_sound.

(** Exactly when an append completes: the field has values already, or has the empty name, or the
    smallest character with which a field (the new one included) continues the name without its last
    character is itself the end of a field name. *)
Theorem C34_append_completes_partial : forall h s outs f t,
  run empty_schema h = (s, outs) -> ~ In Thrown outs ->
  plain_prefixes h -> (N.of_nat (length h) < 2 ^ 64)%N ->
  (snd (append s f t) = Done <->
   is_field h f \/ f = [] \/
   exists q c, f = q ++ [c] /\ first_is_field (fun g => is_field h g \/ g = f) q).
Proof.
  intros h s outs f t Hr Ho Hp Hl. exact (append_completes s h f t (inv_reach h s outs Hr Ho Hp Hl)).
Qed.
Print Assumptions C34_append_completes_partial.

(** Removing the last value of a field reads a destroyed node, unless a longer field name keeps the
    node. *)
Theorem C34_last_drop_refuted : forall h s outs f t n,
  run empty_schema h = (s, outs) -> ~ In Thrown outs ->
  plain_prefixes (h ++ [Drop f t n]) -> (N.of_nat (length h) < 2 ^ 64)%N ->
  is_field h f -> ~ is_field (h ++ [Drop f t n]) f ->
  (snd (drop_n s f t n) = Freed <-> ~ exists g, longer f g /\ is_field h g).
Proof.
  intros h s outs f t n Hr Ho Hp Hl Hf Hn.
  exact (last_drop s h f t n (inv_reach h s outs Hr Ho (plain_app _ _ Hp) Hl) Hp Hf Hn).
Qed.
Print Assumptions C34_last_drop_refuted.

(** Listing the types of a field without values dereferences an end iterator. *)
Theorem C34_absent_refuted : forall h s outs f,
  run empty_schema h = (s, outs) -> ~ In Thrown outs ->
  plain_prefixes h -> (N.of_nat (length h) < 2 ^ 64)%N ->
  (forall k, count h f k = 0%N) -> find_field_versions s f = Err UB.
Proof.
  intros h s outs f Hr Ho Hp Hl Hf. exact (proj1 (inv_lists s h f (inv_reach h s outs Hr Ho Hp Hl)) Hf).
Qed.
Print Assumptions C34_absent_refuted.

Definition INT := Ty 1 0.
Definition STR := Ty 2 0.

(** A document with the fields "name" and "x": the append of "x" throws, and "x" is not listed. *)
Theorem C34_sibling_refuted :
  exists s, run empty_schema [Append (str "name") STR; Append (str "x") INT] = (s, [Done; Thrown]) /\
            find_field_versions s (str "x") = Err UB.
Proof. eexists. split; vm_compute; reflexivity. Qed.
Print Assumptions C34_sibling_refuted.

(** Two kinds in "a" while "ab" exists: both removed, one value put back twice and removed twice
    leaves it listed. *)
Theorem C34_stale_refuted :
  exists h s outs, run empty_schema h = (s, outs) /\ ~ In Thrown outs /\
    balanced h /\ (forall k, count h (str "a") k = 0%N) /\
    find_field_versions s (str "a") = Ok [INT].
Proof.
  exists [Append (str "ab") INT; Append (str "a") INT; Append (str "a") STR;
          Drop (str "a") STR 1; Drop (str "a") INT 1;
          Append (str "a") INT; Append (str "a") INT; Drop (str "a") INT 1; Drop (str "a") INT 1].
  eexists. eexists. split; [vm_compute; reflexivity|]. split; [|split; [|split] ].
  - cbn. intuition discriminate.
  - intros n f k. unfold dropped, appended.
    destruct (list_eq_dec ascii_dec (str "ab") f) as [E1|E1], (list_eq_dec ascii_dec (str "a") f) as [E2|E2].
    + exfalso. rewrite <- E1 in E2. discriminate E2.
    + do 10 (destruct n as [|n]; [cbn -[list_eq_dec N.eqb]; repeat
        (destruct (list_eq_dec ascii_dec _ f); try contradiction; try congruence); lia|]).
      cbn -[list_eq_dec N.eqb]. repeat (destruct (list_eq_dec ascii_dec _ f); try contradiction; try congruence); lia.
    + do 10 (destruct n as [|n]; [cbn -[list_eq_dec N.eqb]; repeat
        (destruct (list_eq_dec ascii_dec _ f); try contradiction; try congruence);
        destruct (1 =? k)%N, (2 =? k)%N; lia|]).
      cbn -[list_eq_dec N.eqb]. repeat (destruct (list_eq_dec ascii_dec _ f); try contradiction; try congruence);
        destruct (1 =? k)%N, (2 =? k)%N; lia.
    + do 10 (destruct n as [|n]; [cbn -[list_eq_dec N.eqb]; repeat
        (destruct (list_eq_dec ascii_dec _ f); try contradiction; try congruence); lia|]).
      cbn -[list_eq_dec N.eqb]. repeat (destruct (list_eq_dec ascii_dec _ f); try contradiction; try congruence); lia.
  - intros k. unfold count. cbn -[N.eqb]. destruct (1 =? k)%N, (2 =? k)%N; reflexivity.
  - vm_compute. reflexivity.
Qed.
Print Assumptions C34_stale_refuted.

(** A field that still has values is missing from the struct when its newest type has none left. *)
Theorem C34_struct_refuted :
  exists s, run empty_schema [Append (str "v") INT; Append (str "v") STR; Drop (str "v") STR 1]
            = (s, [Done; Done; Done]) /\
    find_field_versions s (str "v") = Ok [INT] /\ latest_types_struct s = [].
Proof. eexists. split; [vm_compute; reflexivity|split; vm_compute; reflexivity]. Qed.
Print Assumptions C34_struct_refuted.

(** Types of one kind are not told apart: of an array of one element type and an array of another,
    only the first is listed. *)
Theorem C34_nested_refuted :
  exists s a b, a <> b /\ run empty_schema [Append (str "v") a; Append (str "v") b] = (s, [Done; Done]) /\
    find_field_versions s (str "v") = Ok [a].
Proof.
  eexists. exists (Ty 3 1), (Ty 3 2). split; [discriminate|split; vm_compute; reflexivity].
Qed.
Print Assumptions C34_nested_refuted.

(** The hypotheses of the positive theorems are met by a history with several fields and kinds, in
    which a type and a whole field disappear. *)
Definition sample : list op :=
  [Append (str "name") STR; Append (str "age") INT; Append (str "name") INT; Append (str "age") INT;
   Drop (str "name") STR 1; Append (str "nick") STR; Drop (str "nick") STR 5; Append (str "name") STR].
Example C34_sample : exists s, run empty_schema sample = (s, [Done; Done; Done; Done; Done; Done; Freed; Done]) /\
  find_field_versions s (str "name") = Ok [STR; INT] /\ find_field_versions s (str "age") = Ok [INT] /\
  latest_types_struct s = [(str "age", INT); (str "name", INT)].
Proof. eexists. split; [vm_compute; reflexivity|repeat split; vm_compute; reflexivity]. Qed.
Example C34_sample_plain : plain_prefixes sample.
Proof.
  intros o p Ho Hp [a [l HL]]. exfalso. cbn in Ho, Hp.
  repeat (destruct Ho as [<-|Ho]; [|]); try contradiction;
    repeat (destruct Hp as [<-|Hp]; [|]); try contradiction; cbn in HL; discriminate HL.
Qed.
Example C34_sample_field : is_field sample (str "name") /\ count sample (str "name") 1 = 1%N /\
  count sample (str "nick") 2 = 0%N.
Proof. split; [exists 1%N|split]; vm_compute; reflexivity. Qed.
Example C34_sample_longer : snd (drop_n (fst (run empty_schema [Append (str "ab") INT; Append (str "a") INT])) (str "a") INT 1) = Done.
Proof. vm_compute. reflexivity. Qed.
