(** What a catalogue of namespaces and tables should do. *)
From Verif Require Import Bytes ByteOrd CSchemaModel CatModel.

(** A catalogue: the namespaces there are, and the tables of each. *)
Definition tabs (M : Type) := kind -> list byte -> option M.
Definition world (M : Type) := list (list byte) -> option (tabs M).

Section World.
  Context {M : Type}.
  Implicit Types w : world M.

  Definition there w (p : list (list byte)) : bool := match w p with Some _ => true | None => false end.
  Definition path_eqb (p q : list (list byte)) : bool :=
    if list_eq_dec (list_eq_dec ascii_dec) p q then true else false.

  (** The paths from [q] to [p], both included, when [q] is a beginning of [p]. *)
  Definition between (q p : list (list byte)) : list (list (list byte)) :=
    map (fun n => firstn n p) (seq (length q) (S (length p) - length q)).
  Definition begins (q p : list (list byte)) : bool := path_eqb q (firstn (length q) p).

  (** Creating [p] adds [p] and the namespaces above it, up to the nearest one that is there. *)
  Definition adds w (p q : list (list byte)) : bool :=
    negb (path_eqb q []) && begins q p && forallb (fun r => negb (there w r)) (between q p).
  Definition w_create w p : world M :=
    fun q => if adds w p q then Some (fun _ _ => None) else w q.
  (** Dropping [p] removes [p], with its tables, and nothing else. *)
  Definition w_drop w p : world M := fun q => if path_eqb q p then None else w q.

  Definition kind_eqb (a b : kind) : bool :=
    match a, b with Regular, Regular => true | Computing, Computing => true | _, _ => false end.
  Definition t_at w (k : kind) p n : option M := match w p with Some t => t k n | None => None end.
  (** One entry of one namespace changed. *)
  Definition t_set w (k : kind) p n (m : option M) : world M :=
    fun q => match w q with
             | None => None
             | Some t => Some (fun k' n' => if path_eqb q p && kind_eqb k' k && beqb n' n then m else t k' n')
             end.

  Definition wstep w (o : cop M) : world M * mistake :=
    match o with
    | NsCreate p => (w_create w p, NoMistake)
    | NsDrop p => (w_drop w p, NoMistake)
    | TCreate k p n m =>
        if there w p
        then match t_at w k p n with Some _ => (w, AlreadyExists) | None => (t_set w k p n (Some m), NoMistake) end
        else (w, MissingNamespace)
    | TDrop k p n => (t_set w k p n None, NoMistake)
    | TRename k p n n' =>
        match t_at w k p n, t_at w k p n' with
        | Some m, None => (t_set (t_set w k p n None) k p n' (Some m), NoMistake)
        | _, _ => (w, AlreadyExists)
        end
    end.
  Fixpoint wrun w (h : list (cop M)) : world M * list mistake :=
    match h with
    | [] => (w, [])
    | o :: h' => let '(w1, x) := wstep w o in let '(w2, xs) := wrun w1 h' in (w2, x :: xs)
    end.
  Definition empty_world : world M := fun _ => None.

  (** Namespaces below [p]. *)
  Definition below (p q : list (list byte)) : Prop := exists a l, q = p ++ a :: l.

  (** Every drop is of a namespace without namespaces below it. *)
  Fixpoint leaf_drops w (h : list (cop M)) : Prop :=
    match h with
    | [] => True
    | o :: h' =>
        (match o with NsDrop p => forall q, below p q -> there w q = false | _ => True end) /\
        leaf_drops (fst (wstep w o)) h'
    end.
End World.

(** No call of the history threw. *)
Definition calm (xs : list (out * mistake)) : Prop := Forall (fun x => fst x <> Thrown) xs.
