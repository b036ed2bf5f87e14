(** C108: a condition given by a Python program selects the documents it describes. *)
From Verif Require Import Bytes Outcome ByteOrd PyfModel PyfSpec PyfProofs.

(** C108, in full: find(q) selects a document exactly when all fields of the dictionary q hold of it. Missing from the theorem: "$not" as
    outermost, "$or" beside other fields, dictionaries of several conditions under "$or" and "$not", and names that are an operator behind
    their first character; for all these the claim is false, see below. *)
Theorem C108_partial : forall (V : Type) (test : ctype -> list byte -> V -> bool) (q : list (clause V)),
  outermost q = true -> selected test (map written q) = Ok (forallb (holds test) q).
Proof. intros V. exact selected_right. Qed.
Print Assumptions C108_partial.

(** Making an expression of a dictionary ends, whatever the dictionary. *)
Theorem C108_ends : forall (V : Type) (l : list (list byte * pc V)), exists e, find_condition l = Ok e.
Proof. intros V. exact find_ends. Qed.
Print Assumptions C108_ends.

(** Documents of two numbers a and b (others are 0). *)
Definition of_ab (a b : N) (t : ctype) (f : list byte) (v : N) : bool :=
  let x := if beqb f (str "a") then a else if beqb f (str "b") then b else 0%N in
  match t with Eq => N.eqb x v | Ne => negb (N.eqb x v) | Gt => N.ltb v x | Lt => N.ltb x v | Gte => N.leb v x | Lte => N.leb x v | _ => true end.
(** {"a": {"$gt": 1, "$lt": 9}, "$and": [{"$or": [{"b": 3}, {"b": {"$not": {"$gte": 2}}}]}, {"$not": {"a": 4}}]} *)
Definition sample : list (clause N) :=
  [Compare (str "a") [(Gt, 1%N); (Lt, 9%N)];
   AllOf [[OneOf [[Is (str "b") 3%N]; [Unless (str "b") [(Gte, 2%N)]]]]; [Neither [Is (str "a") 4%N]]]].
Example C108_sample : outermost sample = true /\
  map (fun p => selected (of_ab (fst p) (snd p)) (map written sample)) [(5, 3); (5, 1); (5, 7); (4, 3); (9, 3)]%N =
  [Ok true; Ok true; Ok false; Ok false; Ok false].
Proof. vm_compute. split; reflexivity. Qed.
Example C108_or : outermost [OneOf [[Is (str "a") 1%N]; [Compare (str "b") [(Gt, 1%N)]]]] = true.
Proof. vm_compute. reflexivity. Qed.

(** find({"$not": {"a": 1}}) selects the documents with a = 1, and no others. *)
Theorem C108_not_refuted : exists (q : list (clause N)), q = [Neither [Is (str "a") 1%N]] /\
  forall a b, selected (of_ab a b) (map written q) = Ok (negb (forallb (holds (of_ab a b)) q)).
Proof.
  exists [Neither [Is (str "a") 1%N]]. split; [reflexivity|]. intros a b.
  cbn [forallb holds]. rewrite !andb_true_r, negb_involutive. reflexivity.
Qed.
Print Assumptions C108_not_refuted.

(** find({"$or": [{"a": 1}, {"a": 2}], "b": 3}) selects nothing: all three are asked for together. *)
Theorem C108_or_beside_refuted : exists (q : list (clause N)), q = [OneOf [[Is (str "a") 1%N]; [Is (str "a") 2%N]]; Is (str "b") 3%N] /\
  (forall a b, selected (of_ab a b) (map written q) = Ok false) /\ forallb (holds (of_ab 1 3)) q = true.
Proof.
  eexists. split; [reflexivity|]. split; [|vm_compute; reflexivity]. intros a b.
  assert (E : forall x y z : bool, (do v <- Ok x; (if v then do v <- Ok y; (if v then do v <- Ok z; (if v then Ok true else Ok false) else Ok false) else Ok false))
     = Ok (x && y && z)) by (intros [] [] []; reflexivity).
  transitivity (Ok (N.eqb a 1 && N.eqb a 2 && N.eqb b 3)).
  - exact (E (N.eqb a 1) (N.eqb a 2) (N.eqb b 3)).
  - f_equal. destruct (N.eqb_spec a 1) as [->|]; reflexivity.
Qed.
Print Assumptions C108_or_beside_refuted.

(** find({"$or": [{"a": 1, "b": 2}, {"b": 9}]}) also selects a document with a = 1 and b = 5; {"a": {"$not": {"$gte": 1, "$lt": 5}}} looks
    at the first comparison only. *)
Theorem C108_several_refuted :
  (exists q : list (clause N), q = [OneOf [[Is (str "a") 1%N; Is (str "b") 2%N]; [Is (str "b") 9%N]]] /\
     selected (of_ab 1 5) (map written q) = Ok true /\ forallb (holds (of_ab 1 5)) q = false) /\
  (exists q : list (clause N), q = [Unless (str "a") [(Gte, 1%N); (Lt, 5%N)]] /\
     selected (of_ab 7 0) (map written q) = Ok false /\ forallb (holds (of_ab 7 0)) q = true).
Proof. split; eexists; split; [reflexivity|vm_compute; split; reflexivity|reflexivity|vm_compute; split; reflexivity]. Qed.
Print Assumptions C108_several_refuted.

(** find({"seq": v}) asks for a field without name; find({"a": {"$not": {}}}) has no first condition to look at. *)
Theorem C108_names_refuted :
  (forall (V : Type) (v : V), find_condition [(str "seq", Val v)] = Ok (Expr Eq (Some []) (Some v) [])) /\
  (forall (V : Type) (test : ctype -> list byte -> V -> bool), selected test [(str "a", Dict [(str "$not", Dict [])])] = Err UB).
Proof. split; reflexivity. Qed.
Print Assumptions C108_names_refuted.
