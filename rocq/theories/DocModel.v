(** Documents as graphs of nodes: components/document/document.cpp, document.hpp, json_trie_node.cpp,
    container/json_object.cpp, container/json_array.cpp.  Nodes are shared by pointer, so the model has a heap.
    Simplifications: names are the bytes of the key nodes; the map of an object is a list without order of
    its own; scalars are values ([dval]), floating point numbers are left out; nodes are never freed (a node is freed
    when no pointer to it is left, which cannot be observed); a pointer text ends with NUL, as in a [std::string]. *)
From Verif Require Import Bytes Outcome ByteOrd IndexModel GlobModel JsonPtrModel QueryModel.
From Verif Require TapeModel.
Local Open Scope Z_scope.

(** [json_trie_node] (json_trie_node.hpp 13-95): the pointers to other nodes are positions in the heap. *)
Inductive node := Obj (fs : list (list byte * nat)) | Arr (ls : list nat) | Leaf (v : dval) | Deleter.
Notation heap := (list node) (only parsing).

(** The error codes of document.cpp that the operations return. *)
Inductive code := Success | No_such_element | No_such_container | Invalid_pointer | Invalid_index | Invalid_type.

(** ** Reading *)
(** [atol] of the C library: white space, a sign, decimal digits; a number outside of [long] is undefined. *)
Definition is_space (b : byte) : bool := let n := N_of_byte b in ((n =? 32) || ((9 <=? n) && (n <=? 13)))%N.
Fixpoint digits (acc : Z) (s : list byte) : Z :=
  match s with
  | [] => acc
  | b :: r => let n := N_of_byte b in if ((48 <=? n) && (n <=? 57))%N then digits (10 * acc + Z.of_N (n - 48)) r else acc
  end.
Fixpoint skip_space (s : list byte) : list byte :=
  match s with [] => [] | b :: r => if is_space b then skip_space r else s end.
Definition atol (s : list byte) : res Z :=
  let z := match skip_space s with
           | [] => 0
           | b :: r => if (N_of_byte b =? 45)%N then - digits 0 r else if (N_of_byte b =? 43)%N then digits 0 r else digits 0 (b :: r)
           end in
  if (- 2 ^ 63 <=? z) && (z <? 2 ^ 63) then Ok z else Err UB.

(** [json_object::get] (json_object.cpp 53-59) and [json_array::get] (json_array.cpp 16-21): the index of [atol], a
    negative one being a huge [size_t]. *)
Definition arr_get (ls : list nat) (i : Z) : option nat := if i <? 0 then None else nth_error ls (Z.to_nat i).

(** The loop of [find_node_const] (document.cpp 394-411): the node, or the code of the error. *)
Fixpoint find_keys (h : heap) (l : nat) (ks : list (list byte)) : res (nat + code) :=
  match ks with
  | [] => Ok (inl l)
  | k :: r =>
    match nth_error h l with
    | Some (Obj fs) =>
      do u <- unescape_key k;
      match u with
      | None => Ok (inr Invalid_pointer)
      | Some name => match lookup beqb name fs with None => Ok (inr No_such_element) | Some l' => find_keys h l' r end
      end
    | Some (Arr ls) =>
      do i <- atol k;
      match arr_get ls i with None => Ok (inr No_such_element) | Some l' => find_keys h l' r end
    | Some _ => Ok (inr No_such_element)
    | None => Err UB
    end
  end.
(** [find_node_const] (document.cpp 385-413). *)
Definition find_node (h : heap) (root : nat) (ptr : list byte) : res (nat + code) := find_keys h root (raw_keys ptr).

(** Where a value is put: a name in an object or an index in an array. *)
Inductive slot := Key (k : list byte) | Index (i : nat).

(** [find_container_key] (document.cpp 415-458).  The index is the smaller of the index of the pointer and the size,
    both as [uint32_t] (452). *)
Definition find_container (h : heap) (root : nat) (ptr : list byte) : res ((nat * slot) + code) :=
  let pos := match find_last slash ptr with Some i => i | None => O end in
  do f <- find_node h root (firstn pos ptr);
  match f with
  | inr Invalid_pointer => Ok (inr Invalid_pointer)
  | inr _ => Ok (inr No_such_container)
  | inl c =>
    match nth_error ptr pos with
    | None => Err Throw
    | Some b =>
      let key := if beq b slash then skipn (pos + 1) ptr else ptr in
      match nth_error h c with
      | Some (Obj _) =>
        do u <- unescape_key key;
        match u with None => Ok (inr Invalid_pointer) | Some name => Ok (inl (c, Key name)) end
      | Some (Arr ls) =>
        do i <- atol key;
        if i <? 0 then Ok (inr Invalid_index)
        else Ok (inl (c, Index (Z.to_nat (Z.min (i mod 2 ^ 32) (Z.of_nat (length ls) mod 2 ^ 32)))))
      | Some _ => Ok (inr No_such_container)
      | None => Err UB
      end
    end
  end.

(** ** Changing *)
Fixpoint upd {A} (l : list A) (i : nat) (x : A) : list A :=
  match l, i with
  | [], _ => []
  | _ :: r, O => x :: r
  | y :: r, S j => y :: upd r j x
  end.
(** [json_object::set] after [contains] (document.hpp 259-268, json_object.cpp 61-73). *)
Definition obj_put (fs : list (list byte * nat)) (k : list byte) (n : nat) : list (list byte * nat) :=
  match lookup beqb k fs with
  | Some _ => map (fun e => if beqb (fst e) k then (fst e, n) else e) fs
  | None => fs ++ [(k, n)]
  end.
(** [json_array::set] (json_array.cpp 23-37): an index past the end appends. *)
Definition arr_put (ls : list nat) (i : nat) (n : nat) : list nat :=
  if (length ls <=? i)%nat then ls ++ [n] else upd ls i n.
(** [json_object::remove] (json_object.cpp 75-83) and [json_array::remove] (json_array.cpp 39-46). *)
Definition obj_drop (fs : list (list byte * nat)) (k : list byte) : list (list byte * nat) :=
  filter (fun e => negb (beqb (fst e) k)) fs.
Definition arr_drop (ls : list nat) (i : nat) : list nat := firstn i ls ++ skipn (S i) ls.

(** The last part of [set], [set_] (document.hpp 254-274, document.cpp 310-358): the node [n] is put in the slot. *)
Definition attach (h : heap) (c : nat) (s : slot) (n : nat) : res heap :=
  match nth_error h c, s with
  | Some (Obj fs), Key k => Ok (upd h c (Obj (obj_put fs k n)))
  | Some (Arr ls), Index i => Ok (upd h c (Arr (arr_put ls i n)))
  | _, _ => Err UB
  end.
(** [set_(json_pointer, node)] (document.cpp 310-332). *)
Definition set_node (h : heap) (root : nat) (ptr : list byte) (n : nat) : res (heap * code) :=
  do f <- find_container h root ptr;
  match f with
  | inr e => Ok (h, e)
  | inl (c, s) => do h' <- attach h c s n; Ok (h', Success)
  end.
(** [set] with a value (document.hpp 240-274, 276-337), [set_array], [set_dict], [set_deleter], [set_null]
    (document.cpp 264-276): a new node, made only when the container is found. *)
Definition set_new (h : heap) (root : nat) (ptr : list byte) (x : node) : res (heap * code) :=
  do f <- find_container h root ptr;
  match f with
  | inr e => Ok (h, e)
  | inl (c, s) => do h' <- attach (h ++ [x]) c s (length h); Ok (h', Success)
  end.

(** [remove_] (document.cpp 360-377): also the node that was there. *)
Definition remove (h : heap) (root : nat) (ptr : list byte) : res (heap * (nat + code)) :=
  do f <- find_container h root ptr;
  match f with
  | inr e => Ok (h, inr e)
  | inl (c, s) =>
    match nth_error h c, s with
    | Some (Obj fs), Key k =>
      match lookup beqb k fs with
      | None => Ok (h, inr No_such_element)
      | Some n => Ok (upd h c (Obj (obj_drop fs k)), inl n)
      end
    | Some (Arr ls), Index i =>
      match nth_error ls i with
      | None => Ok (h, inr No_such_element)
      | Some n => Ok (upd h c (Arr (arr_drop ls i)), inl n)
      end
    | _, _ => Err UB
    end
  end.

(** [move] (document.cpp 283-290). *)
Definition move (h : heap) (root : nat) (from to : list byte) : res (heap * code) :=
  do '(h1, r) <- remove h root from;
  match r with inr e => Ok (h1, e) | inl n => set_node h1 root to n end.

(** [make_deep_copy] (json_trie_node.cpp 59-84, json_object.cpp 89-94, json_array.cpp 50-57): the map of an object is
    copied, that is its pointers; an element of an array is assigned to a vector without elements. *)
Definition deep_copy (h : heap) (l : nat) : res (heap * nat) :=
  match nth_error h l with
  | Some (Obj fs) => Ok (h ++ [Obj fs], length h)
  | Some (Arr []) => Ok (h ++ [Arr []], length h)
  | Some (Arr _) => Err UB
  | Some x => Ok (h ++ [x], length h)
  | None => Err UB
  end.
(** [copy] (document.cpp 292-308). *)
Definition copy (h : heap) (root : nat) (from to : list byte) : res (heap * code) :=
  do f <- find_container h root from;
  match f with
  | inr e => Ok (h, e)
  | inl (c, s) =>
    match (match nth_error h c, s with
           | Some (Obj fs), Key k => lookup beqb k fs
           | Some (Arr ls), Index i => nth_error ls i
           | _, _ => None
           end) with
    | None => Ok (h, No_such_element)
    | Some l => do '(h1, n) <- deep_copy h l; set_node h1 root to n
    end
  end.

(** ** Values *)
(** [get_as<T>] (document.hpp 150-163): the default of the type when there is no value of it. *)
Definition leaf_at (h : heap) (root : nat) (ptr : list byte) : res (option dval) :=
  do f <- find_node h root ptr;
  match f with
  | inr _ => Ok None
  | inl l => match nth_error h l with Some (Leaf v) => Ok (Some v) | Some _ => Ok None | None => Err UB end
  end.
Definition get_as_int (to : ik) (h : heap) (root : nat) (ptr : list byte) : res Z :=
  do v <- leaf_at h root ptr;
  match v with
  | Some (DInt k z) => match read_as to k z with Ok z' => Ok z' | Err _ => Ok 0 end
  | _ => Ok 0
  end.
Definition get_as_bool (h : heap) (root : nat) (ptr : list byte) : res bool :=
  do v <- leaf_at h root ptr; match v with Some (DBool b) => Ok b | _ => Ok false end.
Definition get_as_string (h : heap) (root : nat) (ptr : list byte) : res (list byte) :=
  do v <- leaf_at h root ptr; match v with Some (DStr s) => Ok s | _ => Ok [] end.

(** [update(json_pointer, value)] (document.cpp 808-872): the new value of the type of [update] and the answer.  The
    result of [set] is not looked at. *)
Definition set_if (change : bool) (h : heap) (root : nat) (ptr : list byte) (v : dval) : res (heap * bool) :=
  if change then do '(h', _) <- set_new h root ptr (Leaf v); Ok (h', true) else Ok (h, false).
Definition update (h : heap) (root : nat) (ptr : list byte) (v : dval) : res (heap * bool) :=
  match v with
  | DBool b => do old <- get_as_bool h root ptr; set_if (negb (Bool.eqb old b)) h root ptr (DBool b)
  | DInt k z =>
    let t := match k with TapeModel.I128 => TapeModel.I128 | _ => if TapeModel.signed k then TapeModel.I64 else TapeModel.U64 end in
    do z' <- read_as t k z;
    do old <- get_as_int t h root ptr; set_if (negb (old =? z')) h root ptr (DInt t z')
  | DStr s => do old <- get_as_string h root ptr; set_if (negb (beqb old s)) h root ptr (DStr s)
  | _ => Ok (h, false)
  end.
