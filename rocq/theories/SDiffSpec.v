(** What a set of changes to the columns of a table should give. *)
From Verif Require Import Bytes ByteOrd SDiffModel.

(** A column as its user sees it.  The id of an added column is chosen by the catalogue. *)
Record dcol := DCol { n_name : list byte; n_kind : N; n_more : N; n_id : option N; n_req : bool; n_doc : list byte }.

Definition more_of (t : ty) : N := match t_ext t with Some x => x_more x | None => 0%N end.
Definition name_of (c : column) : list byte := match t_ext (fst c) with Some x => x_alias x | None => [] end.
Definition view (c : column) : dcol :=
  DCol (name_of c) (t_kind (fst c)) (more_of (fst c)) (Some (d_id (snd c))) (d_req (snd c)) (d_doc (snd c)).

(** One change of one column: none left when it is deleted. *)
Definition one (o : sop) (c : dcol) : option dcol :=
  match o with
  | Add _ _ _ _ => Some c
  | Delete n => if beqb (n_name c) n then None else Some c
  | Rename n m => if beqb (n_name c) n then Some (DCol m (n_kind c) (n_more c) (n_id c) (n_req c) (n_doc c)) else Some c
  | SetType n t => if beqb (n_name c) n then Some (DCol (n_name c) (t_kind t) (more_of t) (n_id c) (n_req c) (n_doc c)) else Some c
  | SetDoc n doc => if beqb (n_name c) n then Some (DCol (n_name c) (n_kind c) (n_more c) (n_id c) (n_req c) doc) else Some c
  | SetRequired n r => if beqb (n_name c) n then Some (DCol (n_name c) (n_kind c) (n_more c) (n_id c) r (n_doc c)) else Some c
  end.
Definition keep {A} (l : list (option A)) : list A := flat_map (fun o => match o with Some a => [a] | None => [] end) l.
Definition describe1 (cs : list dcol) (o : sop) : list dcol :=
  keep (map (one o) cs) ++ match o with Add n t r doc => [DCol n (t_kind t) (more_of t) None r doc] | _ => [] end.
Definition describe (cs : list dcol) (os : list sop) : list dcol := fold_left describe1 os cs.

(** A stored column is the one described. *)
Definition same (c : column) (d : dcol) : Prop :=
  t_ext (fst c) = Some (Ext (n_more d) (n_name d)) /\ t_kind (fst c) = n_kind d /\
  d_req (snd c) = n_req d /\ d_doc (snd c) = n_doc d /\
  match n_id d with Some i => d_id (snd c) = i | None => d_id (snd c) = 0%N end.

(** ** Changes that the code carries out as described *)
Definition mentions (o : sop) : list (list byte) :=
  match o with
  | Add n _ _ _ => [n] | Delete n => [n] | Rename n m => [n; m]
  | SetType n _ => [n] | SetDoc n _ => [n] | SetRequired n _ => [n]
  end.

(** How far the changes of one column have got. *)
Inductive phase :=
| Untouched
| Own                          (* changed, under the name it has in the table *)
| Moved (m : list byte)        (* renamed before any other change *)
| Closed                       (* renamed after another change: no more changes *)
| Gone.
Definition phase1 (n : list byte) (p : phase) (o : sop) : phase :=
  match p, o with
  | Untouched, Delete x => if beqb x n then Gone else p
  | Untouched, Rename x m => if beqb x n then Moved m else p
  | Untouched, (SetType x _ | SetDoc x _ | SetRequired x _) => if beqb x n then Own else p
  | Own, Delete x => if beqb x n then Gone else p
  | Own, Rename x _ => if beqb x n then Closed else p
  | Moved m, Rename x _ => if beqb x m then Closed else p
  | _, _ => p
  end.
Definition phase_of (before : list sop) (n : list byte) : phase := fold_left (phase1 n) before Untouched.

Definition names (base : list column) : list (list byte) := map name_of base.
Definition fresh (base : list column) (before : list sop) (m : list byte) : bool :=
  negb (mem_str m (names base)) && negb (mem_str m (flat_map mentions before)).
(** [n] is the name in the table of a column not renamed or deleted so far. *)
Definition held (base : list column) (before : list sop) (n : list byte) : bool :=
  mem_str n (names base) && match phase_of before n with Untouched | Own => true | _ => false end.
(** [n] is the new name of a column that was renamed first. *)
Definition moved (base : list column) (before : list sop) (n : list byte) : bool :=
  existsb (fun x => match phase_of before x with Moved m => beqb m n | _ => false end) (names base).
Definition plain_ty (t : ty) : bool := match t_ext t with None => true | Some _ => false end.
Definition plain_col (base : list column) (n : list byte) : bool :=
  forallb (fun c => negb (beqb (name_of c) n) || (more_of (fst c) =? 0)%N) base.

Definition ok_op (base : list column) (before : list sop) (o : sop) : bool :=
  match o with
  | Add n _ _ _ => fresh base before n
  | Delete n => held base before n
  | Rename n m => fresh base before m && (held base before n || moved base before n)
  | SetType n t =>
      plain_ty t &&
      (moved base before n ||
       mem_str n (names base) && match phase_of before n with Untouched => plain_col base n | _ => false end)
  | SetDoc n _ | SetRequired n _ => held base before n || moved base before n
  end.
Fixpoint tidy (base : list column) (before : list sop) (os : list sop) : bool :=
  match os with
  | [] => true
  | o :: r => ok_op base before o && tidy base (before ++ [o]) r
  end.

(** Columns with different names, each with a name. *)
Definition sound (base : list column) : Prop :=
  (forall c, In c base -> exists x, t_ext (fst c) = Some x) /\ NoDup (names base).
Definition ids (base : list column) : list N := map (fun c => d_id (snd c)) base.
Fixpoint n_adds (os : list sop) : nat :=
  match os with [] => 0 | Add _ _ _ _ :: r => S (n_adds r) | _ :: r => n_adds r end.

(** The column a lookup asks for. *)
Definition matches (k : key) (c : column) : Prop :=
  match k with ById i => d_id (snd c) = i | ByName a => name_of c = a end.
