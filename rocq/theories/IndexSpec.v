(** What indexes are for. *)
From Verif Require Import Bytes Outcome ByteOrd LValModel LValSpec IndexModel.
From Coq Require Import Sorting.Permutation.
Local Open Scope nat_scope.

(** The comparison a scan makes between a row's key and the value. *)
Definition holds_for (c : cmp) (v k : lval) : bool :=
  match c with
  | CEq => veqb k v
  | CNe => vneb k v
  | CGt => vgtb k v
  | CLt => vltb k v
  | CGte => vgeb k v
  | CLte => vleb k v
  end.

(** A set of values on which the comparison is a consistent order and equality agrees with it. *)
Record ordered (P : lval -> Prop) : Prop := {
  ord_irrefl : forall a, P a -> vltb a a = false;
  ord_trans : forall a b c, P a -> P b -> P c -> vltb a b = true -> vltb b c = true -> vltb a c = true;
  ord_total : forall a b c, P a -> P b -> P c -> vltb a b = false -> vltb b c = false -> vltb a c = false;
  ord_eq : forall a b, P a -> P b -> veqb a b = negb (vltb a b) && negb (vltb b a) }.

(** Three such sets: numbers of one type, strings, and numbers of any types that are below half of their range. *)
Definition of_type (t : lty) (v : lval) : Prop := exists z, v = VNum t z.
Definition is_string (v : lval) : Prop := exists s, v = VStr s.
Definition tame (v : lval) : Prop :=
  exists t z, v = VNum t z /\ basic t = true /\ t <> TBool /\ fits t z /\ (z < 2 ^ (bits t - 1))%Z.

(** Limits: -1 is no limit. *)
Definition limited {A} (limit : Z) (l : list A) : list A :=
  if (limit =? -1)%Z then l else firstn (Z.to_nat limit) l.

(** The rows of the collection: identity and key, oldest first. *)
Notation rows := (list (N * lval)) (only parsing).
Definition row_entry (r : N * lval) : entry := (snd r, fst r).

Definition step (rs : rows) (c : change) : rows :=
  match c with
  | Insert id k => rs ++ [(id, k)]
  | Delete id _ => filter (fun r => negb (N.eqb id (fst r))) rs
  end.

(** Inserts use fresh identities, deletes name a live row together with its key. *)
Definition legal (P : lval -> Prop) (rs : rows) (c : change) : Prop :=
  match c with
  | Insert id k => P k /\ ~ In id (map fst rs)
  | Delete id k => In (id, k) rs
  end.

(** The deleted row is the oldest with its key. *)
Definition oldest (rs : rows) (c : change) : Prop :=
  match c with
  | Insert _ _ => True
  | Delete id k => exists rest, filter (fun r => veqb (snd r) k) rs = (id, k) :: rest
  end.

Fixpoint legal_all (P : lval -> Prop) (ok : rows -> change -> Prop) (rs : rows) (cs : list change) : Prop :=
  match cs with
  | [] => True
  | c :: r => legal P rs c /\ ok rs c /\ legal_all P ok (step rs c) r
  end.

Definition live (cs : list change) : rows := fold_left step cs [].

(** ** The engine: the live indexes with their ids *)
Record live_index := { lid : nat; lname : list byte; lkeys : list (list byte) }.
Record engine_spec := { lives : list live_index; created : nat }.

Definition spec_serve (s : engine_spec) (r : request) : engine_spec :=
  match r with
  | Create n ks =>
    if existsb (fun i => beqb n (lname i)) (lives s) then s
    else {| lives := lives s ++ [{| lid := created s; lname := n; lkeys := ks |}]; created := S (created s) |}
  | Drop n => {| lives := filter (fun i => negb (beqb n (lname i))) (lives s); created := created s |}
  end.
Definition spec_all (rs : list request) : engine_spec := fold_left spec_serve rs {| lives := []; created := 0 |}.

(** No two live indexes ever have the same keys. *)
Fixpoint distinct_keys (s : engine_spec) (rs : list request) : Prop :=
  match rs with
  | [] => True
  | r :: rest =>
    match r with
    | Create n ks => ~ In ks (map lkeys (lives s))
    | Drop _ => True
    end /\ distinct_keys (spec_serve s r) rest
  end.

(** A pointer leads to the live index [i]. *)
Definition points_to (e : engine) (p : nat) (i : live_index) : Prop :=
  exists x, deref e p = Ok x /\ iname x = lname i /\ ikeys x = lkeys i.
