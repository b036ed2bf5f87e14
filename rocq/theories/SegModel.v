(** Segment trees (core/b_plus_tree/segment_tree.hpp, segment_tree.cpp): a sequence of blocks in the order of their keys,
    each with its least and greatest key kept beside it, in one file.
    Simplifications: the place of a block in the file is modelled in GapModel.v (C31, C55); here the file holds for every
    block the bytes last written for it.  Running out of memory ([unload_old_segments_]), times of last use and checksums
    are not modelled.  The bounds of a block are kept by value (for strings the code keeps views into [string_storage_], which
    is not modelled).  [size_t] counters wrap at 2^64.  The asserts are compiled out. *)
From Verif Require Import Bytes Outcome PhysModel BlockModel.
From Coq Require Import ZArith.

(** [node_t] with its [block_metadata] (segment_tree.hpp 72-86): the block if it is loaded, the block in the file, the
    modified flag, the bounds. *)
Record node := { nblk : option block; ndisk : option block; nmod : bool; nmin : pval; nmax : pval }.
Record tree := { nodes : list node; icount : Z; ucount : Z }.
Definition empty_tree : tree := {| nodes := []; icount := 0; ucount := 0 |}.
Definition u64 (z : Z) : Z := (z mod 2 ^ 64)%Z.

Definition set_nth {A} (i : nat) (x : A) (l : list A) : list A := firstn i l ++ x :: skipn (i + 1) l.
Definition insert_nth {A} (i : nat) (x : A) (l : list A) : list A := firstn i l ++ x :: skipn i l.
Definition erase {A} (i j : nat) (l : list A) : list A := firstn i l ++ skipn j l.

(** [find_range_] (811-824). *)
Definition find_range (l : list node) (k : pval) : nat * nat :=
  let i := lower_bound_in (fun n => less (nmax n) k) l 0 in
  (i, lower_bound_in (fun n => less_equal (nmin n) k) l i).

(** [if (!node->block) load_segment_(metadata)] (868-886): the block, and the nodes with it loaded. *)
Definition load_at (l : list node) (i : nat) : res (block * list node) :=
  match nth_error l i with
  | None => Err UB
  | Some n =>
    match nblk n, ndisk n with
    | Some b, _ => Ok (b, l)
    | None, Some d =>
      do b <- restore_block d;
      Ok (b, set_nth i {| nblk := Some b; ndisk := Some d; nmod := false; nmin := nmin n; nmax := nmax n |} l)
    | None, None => Err UB
    end
  end.

(** A changed block: [modified = true] and [update_metadata_] (939-956).  A new one: [insert_segment_] (911-924). *)
Definition changed (n : node) (b : block) : node :=
  {| nblk := Some b; ndisk := ndisk n; nmod := true; nmin := min_index b; nmax := max_index b |}.
Definition update (l : list node) (i : nat) (b : block) : list node :=
  match nth_error l i with Some n => set_nth i (changed n b) l | None => l end.
Definition new_node (b : block) : node :=
  {| nblk := Some b; ndisk := None; nmod := true; nmin := min_index b; nmax := max_index b |}.

(** [construct_new_node_] (845-866). *)
Definition new_block (k : pval) (x : item) : block :=
  snd (append (initialize (align_to_block_size (length x + header_size + metadata_size))) k x).

(** The loop (103-112) over [c] blocks from [i]: whether the item is there, whether the key is. *)
Fixpoint look_for (l : list node) (k : pval) (x : item) (i c : nat) (key_exists : bool) : res (bool * bool * list node) :=
  match c with
  | O => Ok (false, key_exists, l)
  | S c' =>
    do '(b, l) <- load_at l i;
    let key_exists := key_exists || contains_index b k in
    if contains b k x then Ok (true, key_exists, l) else look_for l k x (i + 1) c' key_exists
  end.

(** [split_append] of the block at [i] and [insert_segment_] of the results (160-172, 176-187). *)
Definition split_node (l : list node) (i : nat) (b : block) (k : pval) (x : item) : res (list node) :=
  do '(t, f, s) <- split_append b k x;
  let l := update l i t in
  let l := match s with Some s => insert_nth (i + 1) (new_node s) l | None => l end in
  Ok (insert_nth (i + 1) (new_node f) l).

(** [append(index, item)] (85-196). *)
Definition place_item (l : list node) (k : pval) (x : item) (p : nat) : res (list node) :=
  do '(b, l) <- load_at l p;
  if is_memory_available b (length x) then Ok (update l p (snd (append b k x)))
  else if less_equal (max_index b) k then
    if p + 1 =? length l then Ok (l ++ [new_node (new_block k x)])
    else
      do '(b', l) <- load_at l (p + 1);
      if is_memory_available b' (length x) then Ok (update l (p + 1) (snd (append b' k x)))
      else Ok (insert_nth (p + 1) (new_node (new_block k x)) l)
  else if match nth_error l p with Some n => greater_equal (nmin n) k | None => false end then
    if p =? 0 then Ok (insert_nth 0 (new_node (new_block k x)) l)
    else
      do '(b', l) <- load_at l (p - 1);
      if is_memory_available b' (length x) then Ok (update l (p - 1) (snd (append b' k x)))
      else split_node l (p - 1) b' k x
  else split_node l p b k x.
Definition seg_append (t : tree) (k : pval) (x : item) : res (bool * tree) :=
  match nodes t with
  | [] => Ok (true, {| nodes := [new_node (new_block k x)]; icount := u64 (icount t + 1); ucount := u64 (ucount t + 1) |})
  | _ =>
    let '(i, j) := find_range (nodes t) k in
    do '(found, key_exists, l) <- look_for (nodes t) k x i (Nat.min (j + 1) (length (nodes t)) - i) false;
    if found : bool then Ok (false, {| nodes := l; icount := icount t; ucount := ucount t |})
    else
      do l <- place_item l k x (if i =? length l then i - 1 else i);
      Ok (true, {| nodes := l; icount := u64 (icount t + 1);
                   ucount := if key_exists : bool then ucount t else u64 (ucount t + 1) |})
  end.

Section Removing.
(** [available_memory() / block_size() > merge_check] in floating point numbers (260-262). *)
Variable sparse : nat -> nat -> bool.

(** Merging with the next or the previous block (258-288). *)
Definition merge_around (l : list node) (p : nat) (b : block) : res (list node) :=
  if negb (sparse (bavail b) (bfull b)) then Ok l
  else
    do '(prev, l) <- (if p =? 0 then Ok (None, l) else do '(x, l) <- load_at l (p - 1); Ok (Some x, l));
    do '(next, l) <- (if p + 1 =? length l then Ok (None, l) else do '(x, l) <- load_at l (p + 1); Ok (Some x, l));
    let try_prev :=
      match prev with
      | Some x =>
        if occupied_memory b <=? bavail x
        then do m <- merge x b; Ok (erase p (p + 1) (update l (p - 1) m))
        else Ok l
      | None => Ok l
      end in
    match next with
    | Some x =>
      if occupied_memory x <=? bavail b
      then do m <- merge b x; Ok (erase (p + 1) (p + 2) (update l p m))
      else try_prev
    | None => try_prev
    end.

(** The loop (238-256) over [c] blocks from [i]; [last] is the node of the round before.  The result: the node at which
    the loop ends, its block, and whether the item was there. *)
Fixpoint find_item (l : list node) (k : pval) (x : item) (i c : nat) : res (nat * block * bool * list node) :=
  match c with
  | O => Err UB
  | S c' =>
    do '(b, l) <- load_at l i;
    if contains b k x then Ok (i, b, true, l)
    else match c' with O => Ok (i, b, false, l) | S _ => find_item l k x (i + 1) c' end
  end.

(** [remove(index, item)] (208-302). *)
Definition seg_remove (t : tree) (k : pval) (x : item) : res (bool * tree) :=
  match nodes t with
  | [] => Ok (false, t)
  | _ =>
    let '(i, j) := find_range (nodes t) k in
    if i =? j then
      if i =? length (nodes t) then Ok (false, t)
      else
        do '(b, l) <- load_at (nodes t) i;
        if negb (contains_index b k) then Ok (false, {| nodes := l; icount := icount t; ucount := ucount t |})
        else
          let '(done, b') := remove b k x in
          if negb done then Ok (false, {| nodes := l; icount := icount t; ucount := ucount t |})
          else
            Ok (true, {| nodes := update l i b'; icount := u64 (icount t - 1);
                         ucount := if item_count b k =? 1 then u64 (ucount t - 1) else ucount t |})
    else
      do '(p, b, found, l) <- find_item (nodes t) k x i (j - i);
      let ucount' := if found && (item_count b k =? 1) then u64 (ucount t - 1) else ucount t in
      let b' := if found : bool then snd (remove b k x) else b in
      if found && (bcount b' =? 0)%Z then Ok (true, {| nodes := erase p (p + 1) l; icount := u64 (icount t - 1); ucount := ucount' |})
      else
        do l <- merge_around (update l p b') p b';
        Ok (true, {| nodes := l; icount := u64 (icount t - 1); ucount := ucount' |})
  end.
End Removing.

(** [count += node->block->count()] over the blocks [i], ..., [i + c - 1] (356-363). *)
Fixpoint count_items (l : list node) (i c : nat) : res (Z * list node) :=
  match c with
  | O => Ok (0%Z, l)
  | S c' =>
    do '(b, l) <- load_at l i;
    do '(n, l) <- count_items l (i + 1) c';
    Ok ((bcount b + n)%Z, l)
  end.

(** [remove_index] (304-369).  The last block of the range is used without loading it (344-346). *)
Definition seg_remove_key (t : tree) (k : pval) : res (bool * tree) :=
  match nodes t with
  | [] => Ok (false, t)
  | _ =>
    let '(i, j) := find_range (nodes t) k in
    if i =? length (nodes t) then Ok (false, t)
    else
      do '(b, l) <- load_at (nodes t) i;
      if negb (contains_index b k) then Ok (false, {| nodes := l; icount := icount t; ucount := ucount t |})
      else
        let '(from, n1, l) :=
          if (buniq b =? 1)%Z then (i, 0%Z, l)
          else (i + 1, Z.of_nat (item_count b k), update l i (snd (remove_index b k))) in
        do '(upto, n2, l) <-
          (if 1 <? j - i then
             match nth_error l (j - 1) with
             | Some n =>
               match nblk n with
               | None => Err UB
               | Some b =>
                 if (buniq b =? 1)%Z then Ok (j, 0%Z, l)
                 else Ok (j - 1, Z.of_nat (item_count b k), update l (j - 1) (snd (remove_index b k)))
               end
             | None => Err UB
             end
           else Ok (j, 0%Z, l));
        do '(n3, l) <- count_items l from (upto - from);
        Ok (true, {| nodes := erase from upto l; icount := u64 (icount t - (n1 + n2 + n3)); ucount := u64 (ucount t - 1) |})
  end.

(** [flush] (734-757): loaded and modified blocks are written.  [lazy_load] (793-819): the header with the bounds and
    counters is read, no block is loaded. *)
Definition flush_node (n : node) : node :=
  match nblk n with
  | Some b => if nmod n then {| nblk := Some b; ndisk := Some b; nmod := false; nmin := nmin n; nmax := nmax n |} else n
  | None => n
  end.
Definition unload_node (n : node) : node :=
  {| nblk := None; ndisk := ndisk n; nmod := false; nmin := nmin n; nmax := nmax n |}.
Definition flush_and_load (t : tree) : tree :=
  {| nodes := map unload_node (map flush_node (nodes t)); icount := icount t; ucount := ucount t |}.

(** The block at [i] in a lookup over the range from [first]: the first is loaded if need be; for any other that is not
    loaded the code loads the first one again ([load_segment_(range.begin)]) and then follows a null pointer. *)
Definition block_in_range (l : list node) (first i : nat) : res block :=
  if i =? first then do '(b, _) <- load_at l i; Ok b
  else match nth_error l i with Some n => match nblk n with Some b => Ok b | None => Err UB end | None => Err UB end.

(** [contains_index] (566-577), [contains] (584-609), [item_count] (611-633), [get_item] (635-663), [get_items]
    (665-703).  What they load is not recorded here.  A range without blocks is looked up in its first block. *)
Definition in_first {A} (l : list node) (i : nat) (f : block -> A) : res A := do b <- block_in_range l i i; Ok (f b).
Definition seg_contains_key (t : tree) (k : pval) : res bool :=
  let '(i, j) := find_range (nodes t) k in
  if i =? length (nodes t) then Ok false else in_first (nodes t) i (fun b => contains_index b k).
Fixpoint contains_loop (l : list node) (k : pval) (x : item) (first i c : nat) : res bool :=
  match c with
  | O => Ok false
  | S c' => do b <- block_in_range l first i; if contains b k x then Ok true else contains_loop l k x first (i + 1) c'
  end.
Definition seg_contains (t : tree) (k : pval) (x : item) : res bool :=
  let '(i, j) := find_range (nodes t) k in
  if i =? length (nodes t) then Ok false
  else if i =? j then in_first (nodes t) i (fun b => contains b k x)
  else contains_loop (nodes t) k x i i (j - i).
Fixpoint count_loop (l : list node) (k : pval) (first i c : nat) : res nat :=
  match c with
  | O => Ok 0
  | S c' => do b <- block_in_range l first i; do n <- count_loop l k first (i + 1) c'; Ok (item_count b k + n)
  end.
Definition seg_item_count (t : tree) (k : pval) : res nat :=
  let '(i, j) := find_range (nodes t) k in
  if i =? length (nodes t) then Ok 0
  else if i =? j then in_first (nodes t) i (fun b => item_count b k)
  else count_loop (nodes t) k i i (j - i).
Fixpoint item_loop (l : list node) (k : pval) (first i c skipped position : nat) : res (option item) :=
  match c with
  | O => Ok None
  | S c' =>
    do b <- block_in_range l first i;
    let n := item_count b k in
    if position <? skipped + n then Ok (get_item b k (skipped + n - position - 1))
    else item_loop l k first (i + 1) c' (skipped + n) position
  end.
Definition seg_get_item (t : tree) (k : pval) (position : nat) : res (option item) :=
  let '(i, j) := find_range (nodes t) k in
  if i =? length (nodes t) then Ok None
  else if i =? j then in_first (nodes t) i (fun b => get_item b k position)
  else item_loop (nodes t) k i i (j - i) 0 position.
Fixpoint items_loop (l : list node) (k : pval) (first i c : nat) : res (list item) :=
  match c with
  | O => Ok []
  | S c' => do b <- block_in_range l first i; do r <- items_loop l k first (i + 1) c'; Ok (get_items b k ++ r)
  end.
Definition seg_get_items (t : tree) (k : pval) : res (list item) :=
  let '(i, j) := find_range (nodes t) k in
  if i =? length (nodes t) then Ok []
  else if i =? j then in_first (nodes t) i (fun b => get_items b k)
  else items_loop (nodes t) k i i (j - i).
