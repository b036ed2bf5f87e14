(** The values of nested vectors. *)
From Verif Require Import Bytes Outcome NestModel.
Local Open Scope nat_scope.

(** [Junk]: memory that was not written. *)
Inductive val := Null | Prim (x : N) | Lst (l : list val) | Rec (v : val) | Fields (a b : val) | NoFields | Junk.

(** The value of a row of a vector. *)
Fixpoint vrow (v : vec) (i : nat) : val :=
  match v with
  | VLeaf d => match nth_error d i with Some (Some x) => Prim x | Some None => Null | None => Junk end
  | VList es v' =>
    match nth_error es i with Some (Some (o, l)) => Lst (map (vrow v') (seq o l)) | Some None => Null | None => Junk end
  | VArray n vd v' =>
    match nth_error vd i with Some true => Lst (map (vrow v') (seq (i * n) n)) | Some false => Null | None => Junk end
  | VStruct vd fs => match nth_error vd i with Some true => Rec (vrow fs i) | Some false => Null | None => Junk end
  | VBoth a b => Fields (vrow a i) (vrow b i)
  | VEnd => NoFields
  end.
Definition rows (v : vec) (n : nat) : list val := map (vrow v) (seq 0 n).
Definition rows_of (bs : list (vec * nat)) : list val := flat_map (fun b => rows (fst b) (snd b)) bs.

(** A vector of a type with [n] rows: every list is within the vector of elements. *)
Fixpoint vwf (t : ty) (v : vec) (n : nat) : Prop :=
  match t, v with
  | TLeaf, VLeaf d => length d = n
  | TList t', VList es v' => length es = n /\ exists m, vwf t' v' m /\ forall o l, In (Some (o, l)) es -> o + l <= m
  | TArray k t', VArray k' vd v' => k' = k /\ length vd = n /\ vwf t' v' (n * k)
  | TStruct fs, VStruct vd v' => length vd = n /\ vwf fs v' n
  | TBoth a b, VBoth x y => vwf a x n /\ vwf b y n
  | TEnd, VEnd => True
  | _, _ => False
  end.

(** Types: a struct has a field, elements and fields are values. *)
Definition is_value (t : ty) : Prop := match t with TBoth _ _ | TEnd => False | _ => True end.
Fixpoint wft (t : ty) : Prop :=
  match t with
  | TLeaf | TEnd => True
  | TList t' => is_value t' /\ wft t'
  | TArray _ t' => is_value t' /\ wft t'
  | TStruct fs => (match fs with TBoth _ _ => True | _ => False end) /\ wft fs
  | TBoth a b => is_value a /\ ~ is_value b /\ wft a /\ wft b
  end.
Fixpoint no_arrays (t : ty) : Prop :=
  match t with
  | TLeaf | TEnd => True | TList t' => no_arrays t' | TArray _ _ => False
  | TStruct fs => no_arrays fs | TBoth a b => no_arrays a /\ no_arrays b
  end.
(** Lists one behind the other from a position on, and the elements they have together. *)
Fixpoint behind (at_ : nat) (es : list (option (nat * nat))) : Prop :=
  match es with
  | [] => True
  | None :: r => behind at_ r
  | Some (o, l) :: r => o = at_ /\ behind (at_ + l) r
  end.
Definition elements (es : list (option (nat * nat))) : nat :=
  list_sum (map (fun e => match e with Some (_, l) => l | None => 0 end) es).
(** Lists that have arrays in them lie one behind the other in the vector of elements. *)
Fixpoint in_order (t : ty) (v : vec) (n : nat) : Prop :=
  match t, v with
  | TList t', VList es v' =>
    no_arrays t' \/ (behind 0 (firstn n es) /\ in_order t' v' (elements (firstn n es)))
  | TArray k t', VArray _ _ v' => in_order t' v' (n * k)
  | TStruct fs, VStruct _ v' => in_order fs v' n
  | TBoth a b, VBoth x y => in_order a x n /\ in_order b y n
  | _, _ => True
  end.
(** No array is the element of a list or of an array, and none is empty. *)
Fixpoint arrays_outside (t : ty) : Prop :=
  match t with
  | TLeaf | TEnd => True
  | TList t' => no_arrays t'
  | TArray k t' => 0 < k /\ no_arrays t'
  | TStruct fs => arrays_outside fs
  | TBoth a b => arrays_outside a /\ arrays_outside b
  end.
Definition batch_ok (t : ty) (b : vec * nat) : Prop :=
  exists m, vwf t (fst b) m /\ snd b <= m /\ in_order t (fst b) (snd b).
