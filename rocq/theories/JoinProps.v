(** Joins of documents (C19). *)
From Verif Require Import Bytes Outcome ByteOrd IndexModel QueryModel JoinModel JoinSpec JoinProofs.
From Verif Require TapeModel.
From Coq Require Import Sorting.Permutation.

(** C19: the documents of a join are made of the rows of the relational join, one document for each row.  Proved for
    conditions that have an answer on each pair and documents for which [joinable] holds.  Missing: the cases refuted
    below. *)
Theorem C19_join_partial : forall t p f left right, joinable t left right = true ->
  (forall l r, In l left -> In r right -> p l r = Ok (f l r)) ->
  exists out, join t p left right = Ok out /\
    exists rs, Permutation rs (rows t f left right) /\ Forall2 made_of out rs.
Proof. exact join_ok. Qed.
Print Assumptions C19_join_partial.

Definition num (z : Z) : jval := Leaf (DInt TapeModel.I64 z).
Definition id (z : Z) : list byte * jval := (str "_id", num z).
Definition person (i c : Z) : jdoc := [(str "pid", num i); (str "city", num c)].
Definition town (i : Z) (n : string) : jdoc := [(str "tid", num i); (str "town", Leaf (DStr (str n)))].
Definition lives (l r : jdoc) : bool :=
  match value l (str "city"), value r (str "tid") with
  | Some (Leaf (DInt _ a)), Some (Leaf (DInt _ b)) => Z.eqb a b
  | _, _ => false
  end.
Definition left_docs : list jdoc := [person 1 10; person 2 20; person 3 10; person 4 99].
Definition right_docs : list jdoc := [town 10 "rome"; town 20 "oslo"; town 30 "bern"].
Definition show (d : jdoc) : option jval * option jval := (content d (str "pid"), content d (str "tid")).
Definition join_show (t : jtype) (l r : list jdoc) :=
  match join t (fun l r => Ok (lives l r)) l r with Ok out => map show out | Err _ => [] end.

Example C19_join_example :
  forallb (fun t => joinable t left_docs right_docs) [JInner; JFull; JLeft; JRight; JCross] = true /\
  join_show JInner left_docs right_docs =
    [(Some (num 1), Some (num 10)); (Some (num 2), Some (num 20)); (Some (num 3), Some (num 10))] /\
  join_show JFull left_docs right_docs =
    [(Some (num 1), Some (num 10)); (Some (num 2), Some (num 20)); (Some (num 3), Some (num 10));
     (Some (num 4), None); (None, Some (num 30))] /\
  join_show JLeft left_docs [] = [(Some (num 1), None); (Some (num 2), None); (Some (num 3), None); (Some (num 4), None)] /\
  length (join_show JCross left_docs right_docs) = 12.
Proof. repeat split; vm_compute; reflexivity. Qed.

(** A full join with nothing on the right reads the front of an empty vector. *)
Theorem C19_full_empty_refuted : forall p l left, join JFull p (l :: left) [] = Err UB.
Proof. reflexivity. Qed.
Print Assumptions C19_full_empty_refuted.

(** A left join sets the fields of an unmatched document to NULL when the right side has fields of that name; every
    stored document has an [_id]. *)
Theorem C19_left_shared_refuted : exists f left right out,
  join JLeft (fun l r => Ok (f l r)) left right = Ok out /\
  ~ exists rs, Permutation rs (rows JLeft f left right) /\ Forall2 made_of out rs.
Proof.
  exists (fun _ _ => false), [[id 1]], [[id 2]], [[(str "_id", Leaf DNull)]]. split; [vm_compute; reflexivity|].
  intros (rs & P & F). cbn in P. apply Permutation_sym, Permutation_length_1_inv in P. subst rs.
  inversion F as [|? ? ? ? H _]; subst. specialize (H (str "_id")). vm_compute in H. discriminate.
Qed.
Print Assumptions C19_left_shared_refuted.

(** An unmatched right document with a nested object makes a full join undefined: the fields for the left side are
    taken from the right side. *)
Theorem C19_full_nested_refuted : exists left right, left <> [] /\ right <> [] /\
  join JFull (fun _ _ => Ok false) left right = Err UB.
Proof.
  exists [[(str "a", num 1)]], [[(str "b", Obj [(str "c", num 2)])]]. repeat split; discriminate.
Qed.
Print Assumptions C19_full_nested_refuted.

(** A pair in which a name is an object on the right only. *)
Theorem C19_nested_refuted : exists l r, join JInner (fun _ _ => Ok true) [l] [r] = Err UB.
Proof. exists [(str "a", num 1)], [(str "a", Obj [])]. reflexivity. Qed.
Print Assumptions C19_nested_refuted.
