(** What sorting and grouping a table mean. *)
From Verif Require Import Bytes Outcome ByteOrd IndexModel QueryModel LValModel TblModel TblSpec TAggModel.
From Verif Require LValSpec.
From Coq Require Import ZArith Permutation Sorted.
Local Open Scope nat_scope.

Notation trow := (list (option lval)) (only parsing).

(** ** Sorting *)
(** The names a list of keys is about, and their directions. *)
Definition key_name (cs : list (list byte * lty)) (s : skey) : option (list byte * bool) :=
  match s with
  | ByName k asc => Some (k, asc)
  | ByPos j asc => match nth_error cs j with Some (k, _) => Some (k, asc) | None => None end
  end.
(** The order of two rows by the first key in which they differ: [None] when a key is missing or NULL. *)
Fixpoint row_order (cs : list (list byte * lty)) (ks : list skey) (a b : trow) : option comparison :=
  match ks with
  | [] => Some Eq
  | s :: r =>
    match key_name cs s with
    | Some (k, asc) =>
      match content cs a k, content cs b k with
      | Some x, Some y =>
        match rel x y with
        | Some Eq => row_order cs r a b
        | Some c => Some (if asc then c else CompOpp c)
        | None => None
        end
      | _, _ => None
      end
    | None => None
    end
  end.
(** Every key is a column. *)
Definition keys_ok (cs : list (list byte * lty)) (ks : list skey) : bool :=
  forallb (fun s => match key_name cs s with Some (k, _) => existsb (fun c => beqb k (fst c)) cs | None => false end) ks.
Definition positions (ks : list skey) : bool := forallb (fun s => match s with ByPos _ _ => true | _ => false end) ks.
Definition names (ks : list skey) : bool := forallb (fun s => match s with ByName _ _ => true | _ => false end) ks.
(** [out] is in the order [ord]: no row is after one it should precede. *)
Definition in_order (ord : trow -> trow -> option comparison) (out : list trow) : Prop :=
  StronglySorted (fun a b => ord a b <> Some Gt) out.

(** ** Grouping *)
(** The values of a row in the key columns. *)
Definition key_values (cs : list (list byte * lty)) (fs : list (list byte)) (row : trow) : list (option (option lval)) :=
  map (cell_of cs row) fs.
(** The rows with the same keys. *)
Definition value_eqb (a b : lval) : bool :=
  match a, b with
  | VNull, VNull => true
  | VNum t x, VNum s y => lty_eqb t s && Z.eqb x y
  | VStr x, VStr y => beqb x y
  | _, _ => false
  end.
Definition opt_eqb {A} (eqb : A -> A -> bool) (a b : option A) : bool :=
  match a, b with None, None => true | Some x, Some y => eqb x y | _, _ => false end.
Definition same_key (cs : list (list byte * lty)) (fs : list (list byte)) (a b : trow) : bool :=
  forallb (fun f => opt_eqb (opt_eqb value_eqb) (cell_of cs a f) (cell_of cs b f)) fs.

(** The number a row has in a column, NULLs and strings left out. *)
Definition number (cs : list (list byte * lty)) (k : list byte) (row : trow) : option Z :=
  match cell_of cs row k with Some (Some (VNum _ z)) => Some z | _ => None end.
Definition numbers (cs : list (list byte * lty)) (k : list byte) (rs : list trow) : list (option Z) := map (number cs k) rs.

(** What an aggregate over the rows [rs] is. *)
Definition means (cs : list (list byte * lty)) (a : agg) (rs : list trow) (v : lval) : Prop :=
  match a with
  | Count => v = VNum TU64 (Z.of_nat (length rs))
  | Sum k => exists t, v = VNum t (LValSpec.total (numbers cs k rs))
  | Min k => exists x, datum_of v = Some x /\ (exists r, In r rs /\ content cs r k = Some x) /\
               forall r y, In r rs -> content cs r k = Some y -> rel x y = Some Lt \/ rel x y = Some Eq
  | Max k => exists x, datum_of v = Some x /\ (exists r, In r rs /\ content cs r k = Some x) /\
               forall r y, In r rs -> content cs r k = Some y -> rel x y = Some Gt \/ rel x y = Some Eq
  end.
(** The aggregate can be computed for every group: a column of the table; for sums one of 32 or 64 bits in which no
    running total of a group overflows. *)
Definition agg_ok (c : chunk) (fs : list (list byte)) (a : agg) : Prop :=
  match a with
  | Count => (Z.of_nat (length (rws c)) < 2 ^ 64)%Z
  | Sum k => exists t, lookup beqb k (cols c) = Some t /\ LValSpec.wide t = true /\
               forall r, In r (rws c) -> LValSpec.no_overflow t (numbers (cols c) k (filter (same_key (cols c) fs r) (rws c)))
  | Min k | Max k => lookup beqb k (cols c) <> None
  end.
(** The type of the result of an aggregate. *)
Definition agg_type (cs : list (list byte * lty)) (a : agg) : option lty :=
  match a with Count => Some TU64 | Sum k | Min k | Max k => lookup beqb k cs end.
