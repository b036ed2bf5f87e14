(** What grouping, aggregating and sorting documents mean. *)
From Verif Require Import Bytes Outcome ByteOrd IndexModel QueryModel QuerySpec GroupModel.
From Verif Require TapeModel.
From Coq Require Import Sorting.Permutation Sorting.Sorted.
Local Open Scope Z_scope.

(** ** Groups *)
(** The same value; numbers by their value. *)
Definition same_value (a b : dval) : bool := match order a b with Some Eq => true | _ => false end.
Definition has_keys (ks : list (list byte)) (d : doc) : bool :=
  forallb (fun k => match field d k with Some _ => true | None => false end) ks.
Definition same_keys (ks : list (list byte)) (a b : doc) : bool :=
  forallb (fun k => match field a k, field b k with Some x, Some y => same_value x y | _, _ => false end) ks.
(** The first document of each group. *)
Fixpoint leaders (ks : list (list byte)) (ds : list doc) : list doc :=
  match ds with
  | [] => []
  | d :: r => d :: filter (fun x => negb (same_keys ks d x)) (leaders ks r)
  end.

(** No nested value in a key, and two integers in one key are both signed, both unsigned or both of 128 bits. *)
Definition int_class (k : ik) : N :=
  match k with TapeModel.I128 => 2 | _ => if TapeModel.signed k then 1 else 0 end%N.
Definition groupable (a b : option dval) : bool :=
  match a, b with
  | Some DNest, _ | _, Some DNest => false
  | Some (DInt k _), Some (DInt k' _) => N.eqb (int_class k) (int_class k')
  | _, _ => true
  end.
Definition plain (ks : list (list byte)) (ds : list doc) : Prop :=
  forall a b k, In a ds -> In b ds -> In k ks -> groupable (field a k) (field b k) = true.

(** ** Aggregates *)
(** The numbers of a field, in the order of the documents. *)
Definition numbers (k : list byte) (ds : list doc) : list Z :=
  flat_map (fun d => match field d k with Some (DInt _ z) => [z] | _ => [] end) ds.
(** The values of a field that are not NULL. *)
Definition values (k : list byte) (ds : list doc) : list dval :=
  flat_map (fun d => match field d k with Some DNull | None => [] | Some v => [v] end) ds.
Definition total (zs : list Z) : Z := fold_right Z.add 0 zs.
(** A field of numbers of one sign, at most 64 bits: missing or an integer. *)
Definition number_field (sgn : bool) (k : list byte) (ds : list doc) : bool :=
  forallb (fun d => match field d k with
                    | None => true
                    | Some (DInt t z) => Bool.eqb (TapeModel.signed t) sgn && negb (N.eqb (TapeModel.code t) 11) && TapeModel.fits t z
                    | Some _ => false
                    end) ds.
(** All partial sums are numbers of the type. *)
Fixpoint sums_fit (t : ik) (acc : Z) (zs : list Z) : bool :=
  match zs with [] => true | z :: r => TapeModel.fits t (acc + z) && sums_fit t (acc + z) r end.

(** ** Sorting *)
(** Values in their order, then NULL, then missing ones. *)
Definition key_order (a b : option dval) : comparison :=
  match a, b with
  | None, None => Eq
  | Some _, None => Lt
  | None, Some _ => Gt
  | Some DNull, Some DNull => Eq
  | Some _, Some DNull => Lt
  | Some DNull, Some _ => Gt
  | Some x, Some y => match order x y with Some c => c | None => Eq end
  end.
(** Lexicographic order by keys, each ascending or descending. *)
Fixpoint lex (ks : list (list byte * bool)) (a b : doc) : comparison :=
  match ks with
  | [] => Eq
  | (k, asc) :: r =>
    match (if asc : bool then key_order (field a k) (field b k) else key_order (field b k) (field a k)) with
    | Eq => lex r a b
    | c => c
    end
  end.
(** Two fields the code can order. *)
Definition orderable (a b : option dval) : bool :=
  match a, b with
  | Some DNest, _ | _, Some DNest => false
  | None, _ | _, None | Some DNull, _ | _, Some DNull => true
  | Some x, Some y => comparable x y
  end.
Definition sortable (ks : list (list byte * bool)) (ds : list doc) : Prop :=
  forall a b k asc, In a ds -> In b ds -> In (k, asc) ks -> orderable (field a k) (field b k) = true.
