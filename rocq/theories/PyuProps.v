(** C109: an update given by a Python program changes the fields it names as it says, and no others. *)
From Coq Require Import Permutation.
From Verif Require Import Bytes Outcome ByteOrd PyuModel PyuSpec PyuProofs.

(** C109, in full: update_one and update_many do what the dictionary of operators says or refuse it. Missing from the theorem: values that
    are lists or dictionaries, and operators other than "$set" and "$inc"; for these the claim is false, see below. *)
Theorem C109_partial : forall (V : Type) (put : option V -> V -> option V) (sum : option V -> V -> V)
    (order : list (list byte * field V) -> list (list byte * field V)), (forall l, Permutation l (order l)) ->
  forall fields s i d, NoDup (map fst fields) -> says fields (str "$set") s -> says fields (str "$inc") i ->
  NoDup (map fst s) -> NoDup (map fst i) ->
  exists d', updated put sum order fields d = Ok d' /\ forall k, d' k = after put sum s i d k.
Proof. intros V put sum order. exact (updated_right put sum order). Qed.
Print Assumptions C109_partial.

Definition nm : list byte -> option N := fun k => if beqb k (str "n") then Some 4%N else if beqb k (str "m") then Some 6%N else None.
Definition plus (x : option N) (v : N) : N := (match x with Some y => y | None => 0 end + v)%N.
Definition sample : list (list byte * field N) :=
  [(str "$inc", Several [(str "n", One 5%N); (str "b", One 2%N)]); (str "$set", Several [(str "a", One 1%N); (str "n", One 10%N)])].
Example C109_sample : NoDup (map fst sample) /\ says sample (str "$set") [(str "a", 1%N); (str "n", 10%N)] /\
  says sample (str "$inc") [(str "n", 5%N); (str "b", 2%N)] /\
  exists d', updated (fun _ v => Some v) plus (@rev _) sample nm = Ok d' /\
  map d' [str "a"; str "n"; str "b"; str "m"; str "c"] = [Some 1; Some 15; Some 2; Some 6; None]%N.
Proof.
  split; [constructor; [intros [E|[]]; discriminate E|constructor; [intros []|constructor]]|].
  split; [left; right; left; reflexivity|]. split; [left; left; reflexivity|].
  eexists. split; [reflexivity|vm_compute; reflexivity].
Qed.
Example C109_set_only : says [(str "$set", Several [(str "a", One 1%N)])] (str "$set") [(str "a", 1%N)] /\
  says [(str "$set", Several [(str "a", One 1%N)])] (str "$inc") [].
Proof. split; [left; left; reflexivity|right]. split; [reflexivity|intros [E|[]]; discriminate E]. Qed.

(** A dictionary without "$set" and "$inc", such as {"$unset": {"a": 1}} or {"a": 1}, is taken and changes nothing. *)
Theorem C109_ignored_refuted : forall (V : Type) (put : option V -> V -> option V) (sum : option V -> V -> V)
    (order : list (list byte * field V) -> list (list byte * field V)) v d,
  updated put sum order [(str "$unset", Several [(str "a", One v)])] d = Ok d /\ updated put sum order [(str "a", One v)] d = Ok d.
Proof. intros V put sum order v d. split; apply unknown; reflexivity. Qed.
Print Assumptions C109_ignored_refuted.

(** {"$set": {k: [...]}} and {"$set": {k: {...}}} read through a null pointer, and so does {"$set": 1}. *)
Theorem C109_nested_refuted : forall (V : Type) (put : option V -> V -> option V) (sum : option V -> V -> V)
    (order : list (list byte * field V) -> list (list byte * field V)), (forall l, Permutation l (order l)) ->
  (forall k l d, updated put sum order [(str "$set", Several [(k, Listed l)])] d = Err UB) /\
  (forall k l d, updated put sum order [(str "$set", Several [(k, Several l)])] d = Err UB) /\
  (forall v d, updated put sum order [(str "$set", One v)] d = Err UB).
Proof.
  intros V put sum order F. split; [|split]; [intros k l d; apply (nested put sum order F); discriminate ..|reflexivity].
Qed.
Print Assumptions C109_nested_refuted.
