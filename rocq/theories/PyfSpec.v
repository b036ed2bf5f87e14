(** What a condition of the Python interface says. *)
From Verif Require Import Bytes Outcome ByteOrd PyfModel.

Section Meaning.
Context {V : Type} (test : ctype -> list byte -> V -> bool).
Inductive clause :=
| Is (f : list byte) (v : V)                                (* {f: v} *)
| Compare (f : list byte) (l : list (ctype * V))            (* {f: {"$gt": v, "$lt": w}} *)
| Unless (f : list byte) (l : list (ctype * V))             (* {f: {"$not": {"$gt": v}}} *)
| AllOf (l : list (list clause))                            (* {"$and": [{...}, {...}]} *)
| OneOf (l : list (list clause))                            (* {"$or": [{...}, {...}]} *)
| Neither (q : list clause).                                (* {"$not": {...}} *)
(** The fields of a dictionary hold together. *)
Fixpoint holds (c : clause) : bool :=
  match c with
  | Is f v => test Eq f v
  | Compare f l => forallb (fun p => test (fst p) f (snd p)) l
  | Unless f l => negb (forallb (fun p => test (fst p) f (snd p)) l)
  | AllOf l => forallb (forallb holds) l
  | OneOf l => existsb (forallb holds) l
  | Neither q => negb (forallb holds q)
  end.
Definition operator (t : ctype) : list byte :=
  match t with
  | Eq => str "$eq" | Ne => str "$ne" | Gt => str "$gt" | Lt => str "$lt" | Gte => str "$gte" | Lte => str "$lte"
  | Regex => str "$regex" | _ => str "$?"
  end.
Definition comparison (t : ctype) : bool :=
  match t with Eq | Ne | Gt | Lt | Gte | Lte | Regex => true | _ => false end.
Fixpoint written (c : clause) : list byte * pc V :=
  match c with
  | Is f v => (f, Val v)
  | Compare f l => (f, Dict (map (fun p => (operator (fst p), Val (snd p))) l))
  | Unless f l => (f, Dict [(str "$not", Dict (map (fun p => (operator (fst p), Val (snd p))) l))])
  | AllOf l => (str "$and", Lst (map (fun q => Dict (map written q)) l))
  | OneOf l => (str "$or", Lst (map (fun q => Dict (map written q)) l))
  | Neither q => (str "$not", Dict (map written q))
  end.

(** A name that is no operator behind its first character. *)
Definition reserved : list (list byte) :=
  map str ["invalid"; "eq"; "ne"; "gt"; "lt"; "gte"; "lte"; "regex"; "any"; "all"; "union_and"; "union_or"; "union_not"; "all_true"; "all_false"]%string.
Definition plain (f : list byte) : bool :=
  match f with [] => false | _ :: w => negb (existsb (beqb w) reserved) end &&
  negb (existsb (beqb f) [str "$and"; str "$or"; str "$not"]).
(** Written as a single condition. *)
Definition single (c : clause) : bool := match c with Compare _ l => Nat.eqb (length l) 1 | _ => true end.
(** Under "$or" and "$not" dictionaries are single conditions. *)
Fixpoint simple (c : clause) : bool :=
  match c with
  | Is f _ => plain f
  | Compare f l => plain f && forallb (fun p => comparison (fst p)) l
  | Unless f l => plain f && forallb (fun p => comparison (fst p)) l && Nat.eqb (length l) 1
  | AllOf l => forallb (forallb simple) l
  | OneOf l => forallb (fun q => match q with [c] => single c && simple c | _ => false end) l
  | Neither q => match q with [c] => single c && simple c | _ => false end
  end.
(** "$or" and "$not" do not stand beside others, and "$not" not outermost. *)
Definition inner (c : clause) : bool := match c with OneOf _ | Neither _ => false | _ => true end.
Definition outermost (q : list clause) : bool :=
  match q with [OneOf l] => simple (OneOf l) | _ => forallb (fun c => simple c && inner c) q end.
End Meaning.
Arguments clause : clear implicits.
