(** Joins of documents: components/physical_plan/collection/operators/operator_join.cpp and the merging of two documents
    (components/document/document.cpp 520-529, json_trie_node.cpp 150-167, container/json_object.cpp 135-156). *)
From Verif Require Import Bytes Outcome ByteOrd IndexModel QueryModel.

(** The tree of a document.  A leaf is a scalar; arrays, which a merge takes as they are, are the leaf [DNest].  Deleter
    nodes, which only occur in updates, are not modelled.  An object is a hash map by name: its order is not observable
    and statements about it go through [lookup]. *)
Inductive jval := Leaf (v : dval) | Obj (fs : list (list byte * jval)).
Notation jdoc := (list (list byte * jval)) (only parsing).
Definition value (d : jdoc) (k : list byte) : option jval := lookup beqb k d.

(** [json_trie_node::merge] and [json_object::merge]: the second wins unless it is an object; an object over something
    that is not an object reads the object of a node that has none (161). *)
Fixpoint merge_node (n1 n2 : jval) : res jval :=
  match n2 with
  | Leaf _ => Ok n2
  | Obj f2 =>
    match n1 with
    | Leaf _ => Err UB
    | Obj f1 =>
      do m <- (fix go l := match l with
                           | [] => Ok []
                           | (k, v) :: r =>
                             do v' <- match lookup beqb k f1 with None => Ok v | Some w => merge_node w v end;
                             do r' <- go r; Ok ((k, v') :: r')
                           end) f2;
      Ok (Obj (m ++ filter (fun kv => match lookup beqb (fst kv) f2 with None => true | Some _ => false end) f1))
    end
  end.
(** [document_t::merge]. *)
Definition merge (d1 d2 : jdoc) : res jdoc :=
  do n <- merge_node (Obj d1) (Obj d2); match n with Obj d => Ok d | Leaf _ => Err UB end.

Inductive jtype := JInner | JFull | JLeft | JRight | JCross.

(** The fields of a document, all NULL (operator_join.cpp 76-80 and the like).  [set] takes the name as a JSON pointer:
    names that are empty or hold '/' or '~' are not modelled. *)
Definition nulls (d : jdoc) : jdoc := map (fun kv => (fst kv, Leaf DNull)) d.
Definition nulls_of_first (ds : list jdoc) : jdoc := match ds with [] => [] | d :: _ => nulls d end.

Section Join.
  (** [check_expressions_] (15-19). *)
  Variable p : jdoc -> jdoc -> res bool.

  (** One left document against the right ones: the merged matches, and per right document whether it matched. *)
  Fixpoint probe (l : jdoc) (right : list jdoc) : res (list jdoc * list bool) :=
    match right with
    | [] => Ok ([], [])
    | r :: rest =>
      do b <- p l r;
      do m <- (if b then do x <- merge l r; Ok [x] else Ok []);
      do '(ms, bs) <- probe l rest;
      Ok (m ++ ms, b :: bs)
    end.
  (** The same from a right document (149-156). *)
  Fixpoint probe_right (r : jdoc) (left : list jdoc) : res (list jdoc * bool) :=
    match left with
    | [] => Ok ([], false)
    | l :: rest =>
      do b <- p l r;
      do m <- (if b then do x <- merge l r; Ok [x] else Ok []);
      do '(ms, v) <- probe_right r rest;
      Ok (m ++ ms, b || v)
    end.

  (** [inner_join_] (62-70). *)
  Fixpoint inner_join (left right : list jdoc) : res (list jdoc) :=
    match left with
    | [] => Ok []
    | l :: rest => do '(ms, _) <- probe l right; do out <- inner_join rest right; Ok (ms ++ out)
    end.

  (** The loop of [outer_left_join_] (125-136). *)
  Fixpoint left_loop (pad : jdoc) (left right : list jdoc) : res (list jdoc) :=
    match left with
    | [] => Ok []
    | l :: rest =>
      do '(ms, bs) <- probe l right;
      do own <- (if existsb (fun b => b) bs then Ok [] else do x <- merge l pad; Ok [x]);
      do out <- left_loop pad rest right;
      Ok (ms ++ own ++ out)
    end.
  (** [outer_left_join_] (115-137). *)
  Definition left_join (left right : list jdoc) : res (list jdoc) := left_loop (nulls_of_first right) left right.

  (** [outer_right_join_] (139-161). *)
  Fixpoint right_loop (pad : jdoc) (left right : list jdoc) : res (list jdoc) :=
    match right with
    | [] => Ok []
    | r :: rest =>
      do '(ms, v) <- probe_right r left;
      do own <- (if v then Ok [] else do x <- merge pad r; Ok [x]);
      do out <- right_loop pad left rest;
      Ok (ms ++ own ++ out)
    end.
  Definition right_join (left right : list jdoc) : res (list jdoc) := right_loop (nulls_of_first left) left right.

  (** [outer_full_join_] (72-113).  [visited] collects the right documents that matched (90, 97). *)
  Definition mark (visited bs : list bool) : list bool := map (fun x => fst x || snd x) (combine visited bs).
  Fixpoint full_left (pad : jdoc) (left right : list jdoc) (visited : list bool) : res (list jdoc * list bool) :=
    match left with
    | [] => Ok ([], visited)
    | l :: rest =>
      do '(ms, bs) <- probe l right;
      do own <- (if existsb (fun b => b) bs then Ok [] else do x <- merge l pad; Ok [x]);
      do '(out, visited') <- full_left pad rest right (mark visited bs);
      Ok (ms ++ own ++ out, visited')
    end.
  Fixpoint full_right (pad : jdoc) (right : list jdoc) (visited : list bool) : res (list jdoc) :=
    match right, visited with
    | r :: rest, v :: vs =>
      do own <- (if v then Ok [] else do x <- merge pad r; Ok [x]);
      do out <- full_right pad rest vs;
      Ok (own ++ out)
    | _, _ => Ok []
    end.
  (** The fields for unmatched right documents are those of the first RIGHT document (75-81), read when the left side is
      not empty; with an empty right side that is the front of an empty vector. *)
  Definition full_pad_left (left right : list jdoc) : res jdoc :=
    match left, right with
    | [], _ => Ok []
    | _ :: _, [] => Err UB
    | _ :: _, r :: _ => Ok (nulls r)
    end.
  Definition full_join (left right : list jdoc) : res (list jdoc) :=
    do pad_left <- full_pad_left left right;
    do '(out, visited) <- full_left (nulls_of_first right) left right (map (fun _ => false) right);
    do rest <- full_right pad_left right visited;
    Ok (out ++ rest).

End Join.

(** [cross_join_] (163-169): no condition. *)
Definition cross_join (left right : list jdoc) : res (list jdoc) := inner_join (fun _ _ => Ok true) left right.

(** [on_execute_impl] (21-60) with both inputs present. *)
Definition join (t : jtype) (p : jdoc -> jdoc -> res bool) (left right : list jdoc) : res (list jdoc) :=
  match t with
  | JInner => inner_join p left right
  | JFull => full_join p left right
  | JLeft => left_join p left right
  | JRight => right_join p left right
  | JCross => cross_join left right
  end.
