(** The versioned trie of the catalogue
    (components/catalog/versioned_trie/{trie_containers,versioned_trie_node,versioned_trie}.hpp),
    over any type [E] of key elements with the comparison [ltb] (std::less of the element type)
    and any type [V] of version entries. *)
From Verif Require Import Bytes.

Section Trie.
  Context {E V : Type}.
  Variable ltb : E -> E -> bool.
  (** versioned_entry::is_alive (trie_containers.hpp 27). *)
  Variable live : V -> bool.

  (** versioned_trie_node.hpp 203-208: the versions of the node (a std::map from version id to
      entry, here in id order) and its children in key order ([keys_] and [children_] are parallel
      vectors, here one list of pairs).  Parent pointers and parent indices are not represented:
      a node is addressed by its key. *)
  Inductive node := Node (vs : list (N * V)) (cs : list (E * node)).
  Definition n_vs (n : node) : list (N * V) := match n with Node vs _ => vs end.
  Definition n_cs (n : node) : list (E * node) := match n with Node _ cs => cs end.

  Definition is_nil {A} (l : list A) : bool := match l with [] => true | _ => false end.

  (** versioned_trie_node.hpp 75: [has_versions] is "the version map is not empty". *)
  Definition has_versions (n : node) : bool := negb (is_nil (n_vs n)).
  (** trie_containers.hpp 77-85. *)
  Definition has_alive (vs : list (N * V)) : bool := existsb (fun v => live (snd v)) vs.

  (** versioned_trie_node.hpp 91-104 [lower_bound]/[find]: the first key not smaller than [e],
      if it is not larger either.  (std::lower_bound on a sorted vector, here a linear scan.) *)
  Fixpoint child_at (cs : list (E * node)) (e : E) : option node :=
    match cs with
    | [] => None
    | (k, c) :: r => if ltb k e then child_at r e else if ltb e k then None else Some c
    end.

  (** The node found by [child_at] is changed in place. *)
  Fixpoint put_child (cs : list (E * node)) (e : E) (c : node) : list (E * node) :=
    match cs with
    | [] => []
    | (k, x) :: r => if ltb k e then (k, x) :: put_child r e c else (k, c) :: r
    end.

  (** versioned_trie_node.hpp 152-161 [insert]: at the lower bound of the key. *)
  Fixpoint add_child (cs : list (E * node)) (e : E) (c : node) : list (E * node) :=
    match cs with
    | [] => [(e, c)]
    | (k, x) :: r => if ltb k e then (k, x) :: add_child r e c else (e, c) :: (k, x) :: r
    end.

  (** versioned_trie_node.hpp 169-176 [erase] of the child found by [child_at]. *)
  Fixpoint rem_child (cs : list (E * node)) (e : E) : list (E * node) :=
    match cs with
    | [] => []
    | (k, x) :: r => if ltb k e then (k, x) :: rem_child r e else r
    end.

  (** versioned_trie.hpp 217-245 [extend_subsequence_impl], for a key all of whose elements are
      found: the node reached. *)
  Fixpoint walk (n : node) (p : list E) : option node :=
    match p with
    | [] => Some n
    | e :: p' => match child_at (n_cs n) e with Some c => walk c p' | None => None end
    end.

  (** versioned_trie.hpp 259-267 [create_children] below a missing element. *)
  Fixpoint chain (p : list E) (ver : N) (v : V) : node :=
    match p with
    | [] => Node [(ver, v)] []
    | e :: p' => Node [] [(e, chain p' ver v)]
    end.

  (** versioned_trie.hpp 140-148: descend as far as the key is present, create the rest, add the
      version.  [current_version_] is larger than every id in use, so std::map::emplace appends. *)
  Fixpoint ins (n : node) (p : list E) (ver : N) (v : V) : node :=
    match p with
    | [] => Node (n_vs n ++ [(ver, v)]) (n_cs n)
    | e :: p' =>
        match child_at (n_cs n) e with
        | Some c => Node (n_vs n) (put_child (n_cs n) e (ins c p' ver v))
        | None => Node (n_vs n) (add_child (n_cs n) e (chain p' ver v))
        end
    end.

  (** versioned_trie.hpp 149: the iterator returned for a new entry is built for child 0 of the
      parent of the new node, whichever child the new node is.  versioned_trie_iterator.hpp 136-161:
      it asks that child for its latest version, and [versions_.at(0)] throws std::out_of_range when
      the child has none.  The parent of the root is the header, whose only child is the root. *)
  Fixpoint first_ok (n : node) (p : list E) : bool :=
    match p with
    | [] => true
    | [_] => match n_cs n with [] => false | (_, c) :: _ => has_versions c end
    | e :: p' => match child_at (n_cs n) e with Some c => first_ok c p' | None => false end
    end.

  (** versioned_trie.hpp 161-188 [erase] below the header.  [None]: the node is destroyed.
      Lines 165-181: the latest version is removed; a node with children stays; a node with live
      versions loses its dead ones; any other node is destroyed.  Lines 183-187: so are its
      predecessors without other children and without versions.  The removed entry was kept alive
      only by the iterators of the call (versioned_trie_iterator.hpp 144-156), whose references
      balance; they are not represented. *)
  Fixpoint del (n : node) (p : list E) : option node :=
    match p with
    | [] =>
        let vs := removelast (n_vs n) in
        if negb (is_nil (n_cs n)) then Some (Node vs (n_cs n))
        else if has_alive vs then Some (Node (filter (fun v => live (snd v)) vs) [])
        else None
    | e :: p' =>
        match child_at (n_cs n) e with
        | None => Some n
        | Some c =>
            match del c p' with
            | Some c' => Some (Node (n_vs n) (put_child (n_cs n) e c'))
            | None =>
                let cs := rem_child (n_cs n) e in
                if is_nil cs && is_nil (n_vs n) then None else Some (Node (n_vs n) cs)
            end
        end
    end.

  (** Whether [del] destroys the node of the key itself. *)
  Definition killed (n : node) (p : list E) : bool :=
    match walk n p with
    | Some m => is_nil (n_cs m) && negb (has_alive (removelast (n_vs m)))
    | None => false
    end.

  (** versioned_trie.hpp 269-273: [header_] has at most one child, the root. *)
  Record trie := Trie { t_root : option node; t_size : N; t_cur : N }.
  Definition empty_trie : trie := Trie None 0 0.

  (** versioned_trie.hpp 77-87 [find]: the versions of the key; [None] is [end()]. *)
  Definition find (t : trie) (p : list E) : option (list (N * V)) :=
    match t_root t with
    | None => None
    | Some r =>
        match walk r p with
        | Some m => if has_versions m then Some (n_vs m) else None
        | None => None
        end
    end.

  (** versioned_trie.hpp 132-150 [insert].  The flag is false when building the returned iterator
      throws; the trie is changed all the same.  A root created while the header already has one
      would hide the old one (it is inserted in front). *)
  Definition insert (t : trie) (p : list E) (v : V) : trie * bool :=
    let r0 :=
      if (t_size t =? 0)%N then Node [] []
      else match t_root t with Some r => r | None => Node [] [] end in
    let found := match walk r0 p with Some m => has_versions m | None => false end in
    let r := ins r0 p (t_cur t) v in
    (Trie (Some r) (t_size t + 1)%N (t_cur t + 1)%N, found || first_ok r p).

  (** versioned_trie.hpp 152-188 [erase] of a key.  The second component tells whether the node
      was destroyed: the local iterator [it] (154) and the argument copy (161) outlive it, and
      their destructors call [release_current_version] on the destroyed node
      (versioned_trie_iterator.hpp 65, 144-150).  The size loses one, and the versions the node
      still had when it is destroyed or cleaned. *)
  Definition erase (t : trie) (p : list E) : trie * bool :=
    match t_root t, find t p with
    | Some r, Some vs =>
        let kept := match walk r p with Some m => negb (is_nil (n_cs m)) | None => false end in
        let rest := removelast vs in
        let lost :=
          if kept then []
          else if has_alive rest then filter (fun v => negb (live (snd v))) rest
          else rest in
        (Trie (del r p) (t_size t - 1 - N.of_nat (length lost))%N (t_cur t), killed r p)
    | _, _ => (t, false)
    end.

  (** A new value for one version of a key ([get_version] returns a reference). *)
  Fixpoint upd (n : node) (p : list E) (f : list (N * V) -> list (N * V)) : node :=
    match p with
    | [] => Node (f (n_vs n)) (n_cs n)
    | e :: p' =>
        match child_at (n_cs n) e with
        | Some c => Node (n_vs n) (put_child (n_cs n) e (upd c p' f))
        | None => n
        end
    end.
  Definition update (t : trie) (p : list E) (f : list (N * V) -> list (N * V)) : trie :=
    Trie (match t_root t with Some r => Some (upd r p f) | None => None end) (t_size t) (t_cur t).

  (** versioned_trie.hpp 94-106 [longest_match] followed by [copy_next_key_elements], for a key
      that is present: the keys of the children of its node, whether they have versions or not. *)
  Definition next_elements (t : trie) (p : list E) : list E :=
    match t_root t with
    | None => []
    | Some r => match walk r p with Some m => map fst (n_cs m) | None => [] end
    end.
End Trie.
Arguments node : clear implicits.
Arguments trie : clear implicits.
Arguments Trie {E V}.
