(** What an index on disk is for. *)
From Coq Require Import List ZArith Bool Permutation.
From Verif Require Import Bytes Outcome OidModel.
From Verif Require Import DixModel.
Import ListNotations.
Local Open Scope Z_scope.

(** The comparison of a key with the value of the query. *)
Definition true_for (c : IndexModel.cmp) (k v : Z) : bool :=
  match c with
  | IndexModel.CEq => k =? v
  | IndexModel.CNe => negb (k =? v)
  | IndexModel.CGt => v <? k
  | IndexModel.CLt => k <? v
  | IndexModel.CGte => v <=? k
  | IndexModel.CLte => k <=? v
  end.

(** The index is a relation between keys and ids. *)
Definition related (r : list (Z * oid)) (k : Z) (o : oid) : bool := existsb (fun e => (fst e =? k) && oid_eqb (snd e) o) r.
Definition after (r : list (Z * oid)) (p : op) : list (Z * oid) :=
  match p with
  | Insert k o => if related r k o then r else (k, o) :: r
  | Remove k o => filter (fun e => negb ((fst e =? k) && oid_eqb (snd e) o)) r
  | _ => r
  end.
(** The calls the theorem is about: keys of 64 bits; no second id for a key; of a key with an id, only that id is removed;
    a restart happens when something is in the index. *)
Definition fits64 (k : Z) : bool := (- 2 ^ 63 <=? k) && (k <? 2 ^ 64).
Definition careful (r : list (Z * oid)) (p : op) : Prop :=
  match p with
  | Insert k o => fits64 k = true /\ oid_wf o = true /\ (In k (map fst r) -> In (k, o) r)
  | Remove k o => fits64 k = true /\ oid_wf o = true /\ (In k (map fst r) -> In (k, o) r)
  | Find _ _ => True
  | Restart => r <> []
  end.
Fixpoint careful_all (r : list (Z * oid)) (ps : list op) : Prop :=
  match ps with [] => True | p :: ps' => careful r p /\ careful_all (after r p) ps' end.
(** The right answers: the ids of the keys for which the comparison is true, each as often as it is there. *)
Fixpoint answers (r : list (Z * oid)) (ps : list op) (outs : list (list oid)) : Prop :=
  match ps, outs with
  | [], [] => True
  | p :: ps', o :: outs' =>
    match p with
    | Find c v => Permutation o (map snd (filter (fun e => true_for c (fst e) v) r))
    | _ => o = []
    end /\ answers (after r p) ps' outs'
  | _, _ => False
  end.

(** ** The collection *)
Definition changed (l : list (oid * Z)) (a : act) : list (oid * Z) :=
  match a with
  | Add o k => l ++ [(o, k)]
  | Delete o _ => filter (fun d => negb (oid_eqb o (fst d))) l
  | Query _ _ _ => l
  end.
Definition matching (l : list (oid * Z)) (c : IndexModel.cmp) (v : Z) : list (oid * Z) :=
  filter (fun d => true_for c (snd d) v) l.
(** The documents added since the last query or found by it. *)
Definition recent (l rec : list (oid * Z)) (a : act) : list (oid * Z) :=
  match a with
  | Add o k => rec ++ [(o, k)]
  | Delete o _ => filter (fun d => negb (oid_eqb o (fst d))) rec
  | Query c v _ => matching l c v
  end.
(** Documents have different ids and different keys of the type int64; a document that is deleted is one of the recent ones. *)
Definition sensible (l rec : list (oid * Z)) (a : act) : Prop :=
  match a with
  | Add o k => (- 2 ^ 63 <= k < 2 ^ 63) /\ oid_wf o = true /\ ~ In o (map fst l) /\ ~ In k (map snd l)
  | Delete o k => In (o, k) l /\ In (o, k) rec
  | Query _ _ _ => True
  end.
Fixpoint sensible_all (l rec : list (oid * Z)) (acts : list act) : Prop :=
  match acts with [] => True | a :: r => sensible l rec a /\ sensible_all (changed l a) (recent l rec a) r end.
(** A query returns the documents for which it is true; with a limit, so many of them ([-1] is no limit). *)
Definition right_answer (l : list (oid * Z)) (c : IndexModel.cmp) (v limit : Z) (out : list N) : Prop :=
  exists full, Permutation full (map (fun d => number (fst d)) (matching l c v)) /\
    out = if limit =? -1 then full else firstn (Z.to_nat limit) full.
Fixpoint right_answers (l : list (oid * Z)) (acts : list act) (outs : list (list N)) : Prop :=
  match acts, outs with
  | [], [] => True
  | a :: r, o :: outs' =>
    match a with Query c v limit => right_answer l c v limit o | _ => o = [] end /\ right_answers (changed l a) r outs'
  | _, _ => False
  end.
(** The documents and the recent ones at the end of a history. *)
Fixpoint final (l rec : list (oid * Z)) (acts : list act) : list (oid * Z) * list (oid * Z) :=
  match acts with [] => (l, rec) | a :: r => final (changed l a) (recent l rec a) r end.
