(** * Model of the B+-tree over leaf files

    Source: core/b_plus_tree/b_plus_tree.cpp and b_plus_tree.hpp.

    Stated simplifications, all of them about this file only:
    - keys ([index_t]) are integers with their usual order, plus the two limits that
      [std::numeric_limits<index_t>] returns for an empty node; Phys* (C45) is about the order of the
      real keys;
    - a leaf is the ascending list of its entries; which block of the segment tree an entry is in
      is the subject of Seg* (C65) and of SegCut* (C66);
    - the pointers between nodes are positions.  A tree with inner nodes is the list of its leaves from
      left to right and, for every level of inner nodes from the root downwards, the number of children of
      every node of that level from left to right.  [left_node_] and [right_node_] of a node are the nodes
      before and after it on its level.  A step of the code that would put nodes out of this
      order is the outcome [Err UB];
    - one thread.  A node left locked by a call that has returned is kept in [stuck]; taking that lock
      again never returns, [Err Diverge];
    - the counters do not wrap around. *)
From Coq Require Import List ZArith Lia Arith Bool.
From Verif Require Import Bytes Outcome.
Import ListNotations.
Local Open Scope Z_scope.

(** an index and the item stored under it, block.hpp [index_t], [item_data] *)
Notation entry := (Z * list byte)%type.

(** [std::numeric_limits<index_t>::min()], an index, [std::numeric_limits<index_t>::max()];
    components/types/physical_value.hpp:114-118 *)
Inductive ext := NegInf | Fin (z : Z) | PosInf.

(** [operator<] on indices *)
Definition ext_ltb (a b : ext) : bool :=
  match a, b with
  | NegInf, NegInf => false | NegInf, _ => true
  | Fin _, NegInf => false | Fin x, Fin y => x <? y | Fin _, PosInf => true
  | PosInf, _ => false
  end.

(** leaf_node_t, b_plus_tree.hpp:51-108: the id of its file and its entries *)
Record leaf := mkleaf { lid : nat; ents : list entry }.

(** btree_t, b_plus_tree.hpp:205-226.  [levels] is empty when the root is a leaf; no leaves: [root_ == nullptr] *)
Record bt := mkbt {
  leaves : list leaf;
  levels : list (list nat);
  icount : Z;          (* item_count_ *)
  lcount : nat;        (* leaf_nodes_count_ *)
  missed : list nat;   (* missed_ids_ *)
  stuck : list nat }.  (* leaves, by id, whose lock was never released *)

(** a new btree_t, b_plus_tree.hpp:205-226 *)
Definition bt0 : bt := mkbt [] [] 0 0 [] [].

(** the capacities, b_plus_tree.cpp:269-271, as functions of [max_node_capacity] *)
Definition mincap (M : nat) : nat := (M / 4)%nat.
Definition share (M : nat) : nat := (M / 2)%nat.

(** ** Leaves *)

(** segment_tree_t::min_index, segment_tree.cpp:705-711 *)
Definition lmin (l : list entry) : ext := match l with [] => NegInf | e :: _ => Fin (fst e) end.
(** segment_tree_t::max_index, segment_tree.cpp:713-719 *)
Definition lmax (l : list entry) : ext := match l with [] => PosInf | e :: _ => Fin (fst (last l e)) end.

(** the indices of a leaf, each once *)
Definition keys (l : list entry) : list Z := nodup Z.eq_dec (map fst l).
(** unique_indices_count, segment_tree.cpp:725 *)
Definition uniq (l : list entry) : nat := length (keys l).

(** equality of items, block.hpp *)
Definition item_eqb (a b : list byte) : bool := if list_eq_dec Ascii.ascii_dec a b then true else false.
Definition entry_eqb (a b : entry) : bool := (fst a =? fst b) && item_eqb (snd a) (snd b).

(** contains_index, contains and get_items of a leaf, segment_tree.cpp:574-703 *)
Definition has_key (k : Z) (l : list entry) : bool := existsb (fun e => fst e =? k) l.
Definition has_entry (k : Z) (x : list byte) (l : list entry) : bool := existsb (entry_eqb (k, x)) l.
Definition items_of (k : Z) (l : list entry) : list (list byte) := map snd (filter (fun e => fst e =? k) l).

(** append to a leaf, segment_tree.cpp append: refused when the entry is there *)
Definition leaf_append (k : Z) (x : list byte) (l : list entry) : bool * list entry :=
  if has_entry k x l then (false, l)
  else (true, filter (fun e => fst e <=? k) l ++ (k, x) :: filter (fun e => k <? fst e) l).

(** remove from a leaf, segment_tree.cpp remove *)
Definition leaf_remove (k : Z) (x : list byte) (l : list entry) : bool * list entry :=
  if has_entry k x l then (true, filter (fun e => negb (entry_eqb (k, x) e)) l) else (false, l).

(** remove_index from a leaf, segment_tree.cpp remove_index *)
Definition leaf_remove_index (k : Z) (l : list entry) : bool * list entry :=
  if has_key k l then (true, filter (fun e => negb (fst e =? k)) l) else (false, l).

(** the entries of the first [n] indices, and the others: what the loops of segment_tree.cpp:384-421 and
    440-531 move, see SegCut* *)
Definition cut (n : nat) (l : list entry) : list entry * list entry :=
  match nth_error (keys l) n with
  | None => (l, [])
  | Some p => (filter (fun e => fst e <? p) l, filter (fun e => p <=? fst e) l)
  end.

(** segment_tree_t::split, segment_tree.cpp:371-424: half of the indices, rounded down, go to the new tree *)
Definition leaf_split (l : list entry) : list entry * list entry := cut (uniq l - uniq l / 2) l.

(** segment_tree_t::merge, segment_tree.cpp:535-572: [this] takes the entries of [other] *)
Definition leaf_merge (this other : list entry) : list entry :=
  if ext_ltb (lmax other) (lmin this) then other ++ this else this ++ other.

(** segment_tree_t::balance_with, segment_tree.cpp:426-533; [this] has no more indices than [other] *)
Definition balance_with (this other : list entry) : list entry * list entry :=
  let r := ((uniq this + uniq other) / 2 - uniq this)%nat in
  if ext_ltb (lmax other) (lmin this) then
    let '(rest, moved) := cut (uniq other - r) other in (moved ++ this, rest)
  else
    let '(moved, rest) := cut r other in (this ++ moved, rest).

(** leaf_node_t::balance, b_plus_tree.cpp:235-242: (this, neighbour) *)
Definition leaf_balance (this neighbour : list entry) : list entry * list entry :=
  if (uniq neighbour <? uniq this)%nat then
    let '(n', t') := balance_with neighbour this in (t', n')
  else balance_with this neighbour.

(** ** Levels *)

Local Open Scope nat_scope.

(** replace the element at a position *)
Definition set_nth {A} (i : nat) (x : A) (l : list A) : list A := firstn i l ++ x :: skipn (S i) l.
(** insert before a position *)
Definition ins_nth {A} (i : nat) (x : A) (l : list A) : list A := firstn i l ++ x :: skipn i l.
(** remove the element at a position *)
Definition del_nth {A} (i : nat) (l : list A) : list A := firstn i l ++ skipn (S i) l.

(** the position, one level down, of the first child of node [j] *)
Definition first_child (g : list nat) (j : nat) : nat := list_sum (firstn j g).
(** the number of children of node [j], b_plus_tree.cpp:176 *)
Definition nchild (g : list nat) (j : nat) : nat := nth j g 0.

(** the leftmost leaf below node [j]; [below]: the levels below, from the nearest *)
Fixpoint leftmost (below : list (list nat)) (j : nat) : nat :=
  match below with [] => j | g :: below' => leftmost below' (first_child g j) end.

(** min_index of a leaf by position *)
Definition leaf_min (ls : list leaf) (p : nat) : ext :=
  match nth_error ls p with Some l => lmin (ents l) | None => PosInf end.
(** min_index of node [j], b_plus_tree.cpp:180-182 *)
Definition node_min (ls : list leaf) (below : list (list nat)) (j : nat) : ext := leaf_min ls (leftmost below j).

(** std::lower_bound with the comparison [n->min_index() < index] on nodes in ascending order *)
Fixpoint lb (mins : list ext) (k : ext) : nat :=
  match mins with [] => 0 | a :: mins' => if ext_ltb a k then S (lb mins' k) else 0 end.

(** inner_node_t::find_node, b_plus_tree.cpp:63-75: which child *)
Definition find_node (mins : list ext) (k : ext) : nat :=
  let p := lb mins k in
  if p =? length mins then p - 1
  else if p =? 0 then 0
  else if ext_ltb k (nth p mins PosInf) then p - 1 else p.

(** the nodes from node [j] down to the leaf for an index, by position on their levels;
    b_plus_tree.cpp:349-364, 974-980 *)
Fixpoint path (ls : list leaf) (lv : list (list nat)) (j : nat) (k : ext) : list nat :=
  j :: match lv with
       | [] => []
       | g :: below =>
           let a := first_child g j in
           let c := a + find_node (map (node_min ls below) (seq a (nchild g j))) k in
           path ls below c k
       end.

(** the position of the leaf for an index, find_leaf_node_, b_plus_tree.cpp:955-985 *)
Definition find_leaf (t : bt) (k : ext) : nat := last (path (leaves t) (levels t) 0 k) 0.

(** unique_entry_count of the inner nodes of a path, from the root *)
Fixpoint counts (lv : list (list nat)) (pth : list nat) : list nat :=
  match lv, pth with
  | g :: lv', j :: pth' => nchild g j :: counts lv' pth'
  | _, _ => []
  end.

(** the stack [modified_nodes] while going down, b_plus_tree.cpp:349-364 and 462-478.  It only ever holds
    a lower end of the path, so its size is enough.  [cs]: unique_entry_count of the inner nodes from the
    root, [leafc]: of the leaf; [clear]: the test that empties the stack, [full]: the test that starts
    recording *)
Fixpoint walk (clear full : nat -> bool) (cs : list nat) (leafc : nat) (record : bool) (n : nat) : bool * nat :=
  match cs with
  | [] => (record, n)
  | c :: cs' =>
      let '(record1, n1) := if clear c then (false, 0) else (record, n) in
      let child := match cs' with [] => leafc | c' :: _ => c' end in
      let record2 := record1 || full child in
      walk clear full cs' leafc record2 (if record2 then S n1 else 0)
  end.

(** ** Append *)

(** get_unique_id_, b_plus_tree.cpp:998-1006: the id and what is left of missed_ids_ *)
Definition unique_id (t : bt) : nat * list nat :=
  match missed t with [] => (lcount t, []) | i :: r => (i, r) end.

(** inner_node_t::insert, b_plus_tree.cpp:77-111, puts the new node, which is at position [q] of the level
    below, at its lower bound among the children of the node, [a .. q-1] and [q+1 .. b]: is that where it is? *)
Definition insert_here (ls : list leaf) (below : list (list nat)) (a q b : nat) : bool :=
  lb (map (node_min ls below) (seq a (q - a) ++ seq (S q) (b - q))) (node_min ls below q) =? q - a.

(** the loop of b_plus_tree.cpp:396-424.  [below]: the levels below, where the new node has been put
    at position [q]; [rest], [rp]: the levels above and the nodes of the path on them, from the nearest;
    [n]: how many of them are on the stack.  Returns all levels from the root *)
Fixpoint push_up (M : nat) (ls : list leaf) (below rest : list (list nat)) (rp : list nat) (n q : nat)
  : res (list (list nat)) :=
  match rest, rp, n with
  | g :: rest', j :: rp', S n' =>
      let c := nchild g j in
      let a := first_child g j in
      if c <? M then
        if insert_here ls below a q (a + c) then
          match n' with
          | O => Ok (rev rest' ++ set_nth j (S c) g :: below)
          | S _ => Err UB  (* insert(nullptr) *)
          end
        else Err UB
      else
        (* split, b_plus_tree.cpp:133-143 *)
        let half := c / 2 in
        let b := a + (c - half) in  (* the first child of the new node, were [q] not there *)
        let right := ext_ltb (node_min ls below (if b <? q then b else S b)) (node_min ls below q) in
        if right then
          if insert_here ls below b q (a + c) && (b <=? q) then
            let g' := firstn j g ++ (c - half) :: S half :: skipn (S j) g in
            match n', rest' with
            | O, [] => Ok ([2] :: g' :: below)
            | O, _ => Err UB  (* the new node is in no parent *)
            | S _, _ => push_up M ls (g' :: below) rest' rp' n' (S j)
            end
          else Err UB
        else
          if insert_here ls below a q b && (q <=? b) then
            let g' := firstn j g ++ S (c - half) :: half :: skipn (S j) g in
            match n', rest' with
            | O, [] => Ok ([2] :: g' :: below)
            | O, _ => Err UB
            | S _, _ => push_up M ls (g' :: below) rest' rp' n' (S j)
            end
          else Err UB
  | _, _, _ => Err UB
  end.

(** is a leaf locked for ever? *)
Definition is_stuck (t : bt) (l : leaf) : bool := existsb (Nat.eqb (lid l)) (stuck t).

(** btree_t::append, b_plus_tree.cpp:294-433 *)
Definition append (M : nat) (t : bt) (k : Z) (x : list byte) : res (bool * bt) :=
  match leaves t, levels t with
  | [], _ =>  (* 297-313 *)
      let '(i, ms) := unique_id t in
      Ok (true, mkbt [mkleaf i [(k, x)]] [] (icount t + 1) (S (lcount t)) ms (stuck t))
  | [l], [] =>  (* 314-344 *)
      if uniq (ents l) <? M then
        let '(r, l') := leaf_append k x (ents l) in
        Ok (r, mkbt [mkleaf (lid l) l'] [] (if r then icount t + 1 else icount t)%Z (lcount t) (missed t) (stuck t))
      else
        let '(i, ms) := unique_id t in
        let '(lo, hi) := leaf_split (ents l) in
        let right := ext_ltb (lmin hi) (Fin k) in
        let '(r, e) := leaf_append k x (if right then hi else lo) in
        Ok (r, mkbt [mkleaf (lid l) (if right then lo else e); mkleaf i (if right then e else hi)] [[2]]
                    (if r then icount t + 1 else icount t)%Z (S (lcount t)) ms (stuck t))
  | ls, lv =>  (* 346-432 *)
      let pth := path ls lv 0 (Fin k) in
      let p := last pth 0 in
      match nth_error ls p with
      | None => Err UB
      | Some l =>
          if is_stuck t l then Err Diverge else
          let u := uniq (ents l) in
          let cs := counts lv pth in
          let '(record, n) := walk (fun c => c <? M) (fun c => c =? M) cs u (hd 0 cs =? M) 0 in
          if u <? M then
            let '(r, e) := leaf_append k x (ents l) in
            Ok (r, mkbt (set_nth p (mkleaf (lid l) e) ls) lv
                        (if r then icount t + 1 else icount t)%Z (lcount t) (missed t) (stuck t))
          else
            let '(i, ms) := unique_id t in
            let '(lo, hi) := leaf_split (ents l) in
            let right := negb (ext_ltb (Fin k) (lmin hi)) in
            let '(r, e) := leaf_append k x (if right then hi else lo) in
            let ls' := ins_nth (S p) (mkleaf i (if right then e else hi))
                               (set_nth p (mkleaf (lid l) (if right then lo else e)) ls) in
            do lv' <- push_up M ls' [] (rev lv) (tl (rev pth)) n (S p);
            Ok (r, mkbt ls' lv' (if r then icount t + 1 else icount t)%Z (S (lcount t)) ms (stuck t))
      end
  end.

(** ** Remove *)

(** the part of the loop of b_plus_tree.cpp:509-569 (and 653-712) for inner nodes.  Node [j] of the first level
    of [rest] has lost a child on the level below; [n]: how many nodes of the path are still on the stack *)
Fixpoint shrink_up (M : nat) (below rest : list (list nat)) (rp : list nat) (n : nat) : res (list (list nat)) :=
  match rest, rp with
  | g :: rest', j :: rp' =>
      let c := nchild g j - 1 in
      let g1 := set_nth j c g in
      if c =? 1 then
        match rest' with
        | [] => Ok below        (* 546-552: the parent is the root, its only child is the new one *)
        | _ => Err UB           (* 546-552: the parent is not the root; the tree outside it is dropped *)
        end
      else
        match n with
        | O => Ok (rev rest' ++ g1 :: below)     (* 554-557 *)
        | S n' =>
            (* current_node = parent_node *)
            if (S j <? length g1) && (nchild g1 (S j) <=? share M) then
              shrink_up M ((firstn j g1 ++ (c + nchild g1 (S j)) :: skipn (S (S j)) g1) :: below) rest' rp' n'
            else if (0 <? j) && (nchild g1 (j - 1) <=? share M) then
              shrink_up M ((firstn (j - 1) g1 ++ (nchild g1 (j - 1) + c) :: skipn (S j) g1) :: below) rest' rp' n'
            else if S j <? length g1 then
              (* balance with the right neighbour, 145-164 *)
              let o := nchild g1 (S j) in
              if (c + o) / 2 <? c then Err UB else
              let r := (c + o) / 2 - c in
              Ok (rev rest' ++ (firstn j g1 ++ (c + r) :: (o - r) :: skipn (S (S j)) g1) :: below)
            else if 0 <? j then
              let o := nchild g1 (j - 1) in
              if (c + o) / 2 <? c then Err UB else
              let r := (c + o) / 2 - c in
              Ok (rev rest' ++ (firstn (j - 1) g1 ++ (o - r) :: (c + r) :: skipn (S j) g1) :: below)
            else Err UB
        end
  | _, _ => Err UB
  end.

(** btree_t::remove, b_plus_tree.cpp:437-578, and remove_index, 580-720.  They differ in what is removed from
    the leaf ([rm]), in how many items go ([delta]) and in the count that decides on merging with the left
    neighbour ([left_count]: count() in 516, unique_entry_count() in 660).  The second removal of 498-503 needs a
    leaf that has more indices after the removal than before; it is left out *)
Definition remove_gen (M : nat) (rm : list entry -> bool * list entry) (delta : list entry -> Z)
    (left_count : list entry -> nat) (t : bt) (k : Z) : res (bool * bt) :=
  match leaves t, levels t with
  | [], _ => Ok (false, t)  (* 440-442 *)
  | [l], [] =>  (* 443-455 *)
      let '(r, e) := rm (ents l) in
      let ic := (if r then icount t - delta (ents l) else icount t)%Z in
      match e with
      | [] => Ok (r, mkbt [] [] ic (lcount t - 1) (missed t ++ [lid l]) (stuck t))
      | _ => Ok (r, mkbt [mkleaf (lid l) e] [] ic (lcount t) (missed t) (stuck t))
      end
  | ls, lv =>
      let pth := path ls lv 0 (Fin k) in
      let p := last pth 0 in
      match nth_error ls p with
      | None => Err UB
      | Some l =>
          if is_stuck t l then Err Diverge else
          let u := uniq (ents l) in
          let cs := counts lv pth in
          let '(record, n) := walk (fun c => mincap M <? c) (fun c => c =? mincap M) cs u (hd 0 cs =? 1) 0 in
          if negb (has_key k (ents l)) then
            (* 480-484: the lock of the leaf is kept *)
            Ok (false, mkbt ls lv (icount t) (lcount t) (missed t) (lid l :: stuck t))
          else
          let '(r, e) := rm (ents l) in
          let ic := (if r then icount t - delta (ents l) else icount t)%Z in
          let ls1 := set_nth p (mkleaf (lid l) e) ls in
          if mincap M <? u then Ok (r, mkbt ls1 lv ic (lcount t) (missed t) (stuck t))
          else if negb r then
            (* the locks of the stack are kept: no leaf below the parent can be reached any more *)
            let g := last lv [] in
            let j := hd 0 (tl (rev pth)) in
            Ok (false, mkbt ls lv (icount t) (lcount t) (missed t)
                            (if n =? 0 then stuck t
                             else map lid (firstn (nchild g j) (skipn (first_child g j) ls)) ++ stuck t))
          else
          let right := nth_error ls (S p) in
          let left := if p =? 0 then None else nth_error ls (p - 1) in
          let fin ls' :=
            do lv' <- shrink_up M [] (rev lv) (tl (rev pth)) (n - 1);
            Ok (r, mkbt ls' lv' ic (lcount t - 1) (missed t ++ [lid l]) (stuck t)) in
          match right, left with
          | Some o, _ =>
              if uniq (ents o) <=? share M then
                if is_stuck t o then Err Diverge else
                fin (del_nth p (set_nth (S p) (mkleaf (lid o) (leaf_merge (ents o) e)) ls))
              else
                match left with
                | Some o' =>
                    if left_count (ents o') <=? share M then
                      if is_stuck t o' then Err Diverge else
                      fin (del_nth p (set_nth (p - 1) (mkleaf (lid o') (leaf_merge (ents o') e)) ls))
                    else
                      if is_stuck t o then Err Diverge else
                      let '(e1, o1) := leaf_balance e (ents o) in
                      Ok (r, mkbt (set_nth (S p) (mkleaf (lid o) o1) (set_nth p (mkleaf (lid l) e1) ls)) lv
                                  ic (lcount t) (missed t) (stuck t))
                | None =>
                    if is_stuck t o then Err Diverge else
                    let '(e1, o1) := leaf_balance e (ents o) in
                    Ok (r, mkbt (set_nth (S p) (mkleaf (lid o) o1) (set_nth p (mkleaf (lid l) e1) ls)) lv
                                ic (lcount t) (missed t) (stuck t))
                end
          | None, Some o' =>
              if is_stuck t o' then Err Diverge else
              if left_count (ents o') <=? share M then
                fin (del_nth p (set_nth (p - 1) (mkleaf (lid o') (leaf_merge (ents o') e)) ls))
              else
                let '(e1, o1) := leaf_balance e (ents o') in
                Ok (r, mkbt (set_nth (p - 1) (mkleaf (lid o') o1) (set_nth p (mkleaf (lid l) e1) ls)) lv
                            ic (lcount t) (missed t) (stuck t))
          | None, None => Err UB
          end
      end
  end.

Definition remove (M : nat) (t : bt) (k : Z) (x : list byte) : res (bool * bt) :=
  remove_gen M (leaf_remove k x) (fun _ => 1%Z) (@length _) t k.

Definition remove_index (M : nat) (t : bt) (k : Z) : res (bool * bt) :=
  remove_gen M (leaf_remove_index k) (fun l => Z.of_nat (length (items_of k l))) uniq t k.

(** ** Reading *)

(** get_items, b_plus_tree.cpp:923-933 (contains_index and item_count find the leaf in the same way) *)
Definition get_items (t : bt) (k : Z) : res (list (list byte)) :=
  match leaves t with
  | [] => Ok []
  | ls =>
      match nth_error ls (find_leaf t (Fin k)) with
      | None => Err UB
      | Some l => if is_stuck t l then Err Diverge else Ok (items_of k (ents l))
      end
  end.

(** size, b_plus_tree.cpp:934 *)
Definition size (t : bt) : Z := icount t.

(** full_scan, b_plus_tree.hpp:239-263, list_indices, b_plus_tree.cpp:722-742, unique_indices_count, 936-953,
    start at the leaf for the least index and follow right_node_ *)
Definition full_scan (t : bt) : res (list entry) :=
  match leaves t with
  | [] => Ok []
  | ls =>
      let p := find_leaf t NegInf in
      match nth_error ls p with
      | None => Err UB
      | Some l => if is_stuck t l then Err Diverge else Ok (flat_map ents (skipn p ls))
      end
  end.

(** the inner loops of scan_ascending, b_plus_tree.hpp:293-314, over the entries of one leaf.  [inl out]: go on
    with that limit, [inr]: return.  The predicate of the caller is [pred] *)
Fixpoint asc_entries (pred : entry -> bool) (lo hi : Z) (limit : nat) (l : list entry) : list entry * option nat :=
  match l with
  | [] => ([], Some limit)
  | e :: l' =>
      if (hi <? fst e)%Z then ([], None)
      else if (fst e <? lo)%Z then asc_entries pred lo hi limit l'
      else if pred e then
        if limit =? 1 then ([e], None)
        else let '(r, s) := asc_entries pred lo hi (limit - 1) l' in (e :: r, s)
      else asc_entries pred lo hi limit l'
  end.

(** the outer loop, b_plus_tree.hpp:288-316 *)
Fixpoint asc_leaves (pred : entry -> bool) (lo hi : Z) (limit : nat) (ls : list leaf) : list entry :=
  match ls with
  | [] => []
  | l :: ls' =>
      if ext_ltb (Fin hi) (lmin (ents l)) then []
      else match asc_entries pred lo hi limit (ents l) with
           | (r, None) => r
           | (r, Some limit') => r ++ asc_leaves pred lo hi limit' ls'
           end
  end.

(** scan_ascending, b_plus_tree.hpp:276-320; a limit of 0 leaves the leaf locked for reading (283-285) *)
Definition scan_ascending (t : bt) (pred : entry -> bool) (lo hi : Z) (limit : nat) : res (list entry) :=
  match leaves t with
  | [] => Ok []
  | ls =>
      let p := find_leaf t (Fin lo) in
      match nth_error ls p with
      | None => Err UB
      | Some l => if is_stuck t l then Err Diverge
                  else if limit =? 0 then Ok [] else Ok (asc_leaves pred lo hi limit (skipn p ls))
      end
  end.

(** scan_decending, b_plus_tree.hpp:333-377: the same loops over the leaves to the left, from their ends *)
Fixpoint desc_entries (pred : entry -> bool) (lo hi : Z) (limit : nat) (l : list entry) : list entry * option nat :=
  match l with
  | [] => ([], Some limit)
  | e :: l' =>
      if (fst e <? lo)%Z then ([], None)
      else if (hi <? fst e)%Z then desc_entries pred lo hi limit l'
      else if pred e then
        if limit =? 1 then ([e], None)
        else let '(r, s) := desc_entries pred lo hi (limit - 1) l' in (e :: r, s)
      else desc_entries pred lo hi limit l'
  end.

Fixpoint desc_leaves (pred : entry -> bool) (lo hi : Z) (limit : nat) (ls : list leaf) : list entry :=
  match ls with
  | [] => []
  | l :: ls' =>
      if ext_ltb (lmax (ents l)) (Fin lo) then []
      else match desc_entries pred lo hi limit (rev (ents l)) with
           | (r, None) => r
           | (r, Some limit') => r ++ desc_leaves pred lo hi limit' ls'
           end
  end.

Definition scan_decending (t : bt) (pred : entry -> bool) (lo hi : Z) (limit : nat) : res (list entry) :=
  match leaves t with
  | [] => Ok []
  | ls =>
      let p := find_leaf t (Fin hi) in
      match nth_error ls p with
      | None => Err UB
      | Some l => if is_stuck t l then Err Diverge
                  else if limit =? 0 then Ok [] else Ok (desc_leaves pred lo hi limit (rev (firstn (S p) ls)))
      end
  end.

(** ** Load *)

(** one level of inner nodes over [c] nodes, b_plus_tree.cpp:841-860; the number of rounds is bounded by [fuel] *)
Fixpoint pack_level (M fuel c : nat) : list nat :=
  match fuel, c with
  | S fuel', S _ =>
      let size := (M + mincap M) / 2 in
      if size + mincap M <=? c then size :: pack_level M fuel' (c - size) else [c]
  | _, _ => []
  end.

(** all levels over [c] nodes, b_plus_tree.cpp:840-866, above the levels [below] *)
Fixpoint pack (M fuel c : nat) (below : list (list nat)) : list (list nat) :=
  match fuel with
  | O => below
  | S fuel' => if c <=? 1 then below else let g := pack_level M c c in pack M fuel' (length g) (g :: below)
  end.

(** load in a new btree_t, b_plus_tree.cpp:784-870: the leaves in the order of the metadata, with what their files
    hold.  missed_ids_ is not restored *)
Definition load (M : nat) (ic : Z) (ls : list leaf) : bt :=
  mkbt ls (pack M (length ls) (length ls) []) ic (length ls) [] [].
