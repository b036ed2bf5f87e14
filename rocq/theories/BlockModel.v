(** Blocks of the B+tree (core/b_plus_tree/block.hpp, block.cpp).
    A block is one memory area of [full_size_] bytes: a header of 16 bytes, the bytes of the items growing upwards from
    there, and an array of metadata growing downwards from the end.  [last_metadata_] is the lowest metadata; the array is
    kept in decreasing order of keys.
    Simplifications: the bytes between the items and the metadata are not modelled.  A string key in the metadata is a
    pointer into the bytes of its own item and is re-pointed whenever these bytes are moved; the model keeps its value.
    The asserts are compiled out; what they demand is a hypothesis of the theorems.  [size_t] sums do not overflow
    (block sizes are below 2^32). *)
From Verif Require Import Bytes Outcome PhysModel.
From Coq Require Import ZArith.

(** [struct metadata] (block.hpp 35-39). *)
Record meta := { moff : nat; msize : nat; mkey : pval }.

(** The fields of a block: [full_size_], the bytes from [internal_buffer_ + header_size] to [buffer_], the metadata from
    [last_metadata_] to [end_], the two 32-bit counters of the header and [available_memory_]. *)
Record block := { bfull : nat; bdata : list byte; bmeta : list meta; bcount : Z; buniq : Z; bavail : nat }.

Notation item := (list byte) (only parsing).
Notation entry := (pval * list byte)%type (only parsing).

(** block.hpp 42-43 and 19-29. *)
Definition header_size : nat := 16.
Definition metadata_size : nat := 24.
Definition DEFAULT_BLOCK_SIZE : N := 262144.
Definition align_to_block_size (size : nat) : nat :=
  N.to_nat ((N.of_nat size + (DEFAULT_BLOCK_SIZE - 1)) / DEFAULT_BLOCK_SIZE * DEFAULT_BLOCK_SIZE).

(** Counters are [uint32_t]. *)
Definition u32 (z : Z) : Z := (z mod 2 ^ 32)%Z.

(** [std::numeric_limits<physical_value>] (components/types/physical_value.hpp 114-118). *)
Definition limit_min : pval := PBool false.
Definition limit_max : pval := PNull.

(** [std::lower_bound] (the library's binary search) on the [len] elements from [first]: the first element for which
    [c] does not hold, provided that [c] holds for a prefix. *)
Fixpoint lower_bound {A} (fuel : nat) (c : A -> bool) (l : list A) (first len : nat) : nat :=
  match fuel with
  | O => first
  | S f =>
    match len with
    | O => first
    | S _ =>
      let half := Nat.div2 len in
      match nth_error l (first + half) with
      | Some x => if c x then lower_bound f c l (first + half + 1) (len - half - 1) else lower_bound f c l first half
      | None => first
      end
    end
  end.
Definition lower_bound_in {A} (c : A -> bool) (l : list A) (first : nat) : nat :=
  let len := length l - first in lower_bound (S len) c l first len.

(** Elements [i] up to [j]. *)
Definition slice {A} (i j : nat) (l : list A) : list A := firstn (j - i) (skipn i l).

(** [internal_buffer_ + offset], [size] bytes: [metadata_to_item_data_] (block.cpp 634-636). *)
Definition bytes_at (data : list byte) (off size : nat) : list byte := firstn size (skipn (off - header_size) data).
Definition read (b : block) (m : meta) : list byte := bytes_at (bdata b) (moff m) (msize m).

(** [find_index_range_] (559-573). *)
Definition find_index_range (b : block) (k : pval) : nat * nat :=
  let i := lower_bound_in (fun m => greater (mkey m) k) (bmeta b) 0 in
  (i, lower_bound_in (fun m => greater_equal (mkey m) k) (bmeta b) i).

(** [initialize] (55-70): an empty block; [available_memory_] by [restore_block]. *)
Definition initialize (size : nat) : block :=
  {| bfull := size; bdata := []; bmeta := []; bcount := 0; buniq := 0; bavail := size - header_size |}.

(** [restore_block] (288-299) on the memory of a block: [last_metadata_] from the counter of the header, [buffer_] and
    [available_memory_] from the sizes.  [UB] when the counter names more metadata than there are. *)
Definition restore_block (b : block) : res block :=
  if (Z.of_nat (length (bmeta b)) <? bcount b)%Z then Err UB
  else
    let ms := skipn (length (bmeta b) - Z.to_nat (bcount b)) (bmeta b) in
    let used := list_sum (map msize ms) in
    Ok {| bfull := bfull b; bdata := firstn used (bdata b); bmeta := ms; bcount := bcount b; buniq := buniq b;
          bavail := bfull b - metadata_size * length ms - (header_size + used) |}.

(** [occupied_memory] (74), [is_memory_available] (76-78), [is_empty] (80). *)
Definition occupied_memory (b : block) : nat := bfull b - bavail b - header_size.
Definition is_memory_available (b : block) (size : nat) : bool := size + metadata_size <=? bavail b.

(** [it->size == item.size && memcmp(...) == 0]. *)
Definition bytes_eqb (x y : list byte) : bool := if list_eq_dec ascii_dec x y then true else false.
Definition same (b : block) (x : item) (m : meta) : bool :=
  (msize m =? length x) && bytes_eqb x (read b m).

(** [append(index, item)] (91-129). *)
Definition append (b : block) (k : pval) (x : item) : bool * block :=
  if negb (is_memory_available b (length x)) then (false, b)
  else
    let '(i, j) := find_index_range b k in
    if existsb (same b x) (slice i j (bmeta b)) then (false, b)
    else
      (true,
       {| bfull := bfull b;
          bdata := bdata b ++ x;
          bmeta := firstn i (bmeta b) ++
                   {| moff := header_size + length (bdata b); msize := length x; mkey := k |} :: skipn i (bmeta b);
          bcount := u32 (bcount b + 1);
          buniq := if i =? j then u32 (buniq b + 1) else buniq b;
          bavail := bavail b - (length x + metadata_size) |}).

(** The body of the loop of [remove] (148-171): remove the item of metadata [p]. *)
Definition shift_after (off size : nat) (m : meta) : meta :=
  if off <? moff m then {| moff := moff m - size; msize := msize m; mkey := mkey m |} else m.
Definition remove_at (b : block) (p : nat) (m : meta) : block :=
  let o := moff m - header_size in
  {| bfull := bfull b;
     bdata := firstn o (bdata b) ++ skipn (o + msize m) (bdata b);
     bmeta := map (shift_after (moff m) (msize m)) (firstn p (bmeta b) ++ skipn (p + 1) (bmeta b));
     bcount := bcount b; buniq := buniq b; bavail := bavail b + (msize m + metadata_size) |}.
(** The loop: [n] metadata left to visit, the next one is [p].  After a removal the metadata before [p] move up by one
    place, so that the place [p] holds the next one. *)
Fixpoint remove_loop (b : block) (x : item) (p n : nat) : block :=
  match n with
  | O => b
  | S n' =>
    match nth_error (bmeta b) p with
    | Some m => if same b x m then remove_loop (remove_at b p m) x p n' else remove_loop b x (p + 1) n'
    | None => b
    end
  end.
(** [remove(index, item)] (138-175). *)
Definition remove (b : block) (k : pval) (x : item) : bool * block :=
  let '(i, j) := find_index_range b k in
  if i =? j then (false, b)
  else
    let b1 := {| bfull := bfull b; bdata := bdata b; bmeta := bmeta b; bcount := u32 (bcount b - 1);
                 buniq := if i + 1 =? j then u32 (buniq b - 1) else buniq b; bavail := bavail b |} in
    (true, remove_loop b1 x i (j - i)).

(** [remove_range_] (575-632).  [untouched_spaces] is a list of (first, second) = (start, length). *)
Notation space := (nat * nat)%type (only parsing).
(** One round of the first loop (583-600): the last space that does not start after the item is cut. *)
Fixpoint cut (sp : list space) (off size : nat) : list space :=
  match sp with
  | [] => []
  | s :: r =>
    let here :=
      let next := (off + size, snd s + fst s - off - size) in
      (fst s, off - fst s) :: (if snd next =? 0 then r else next :: r) in
    match r with
    | [] => here
    | n :: _ => if off <? fst n then here else s :: cut r off size
    end
  end.
(** The second loop (602-609): touching spaces become one. *)
Fixpoint join_spaces (s : space) (sp : list space) : list space :=
  match sp with
  | [] => [s]
  | n :: r => if fst s + snd s =? fst n then join_spaces (fst s, snd s + snd n) r else s :: join_spaces n r
  end.
(** [memmove] within the bytes of the items; the positions are relative to [internal_buffer_].  The last space reaches 16
    bytes past [buffer_] (580: an end is used as a length); these bytes are free memory and not modelled. *)
Definition memmove (data : list byte) (dst src len : nat) : list byte :=
  let moved := firstn len (skipn (src - header_size) data) in
  firstn (dst - header_size) data ++ moved ++ skipn (dst - header_size + length moved) data.
(** Metadata of the items of a moved space (619-628). *)
Definition shift_in (n : space) (required : nat) (m : meta) : meta :=
  if (fst n <=? moff m) && (moff m <? fst n + snd n)
  then {| moff := moff m - required; msize := msize m; mkey := mkey m |} else m.
(** The third loop (613-630). *)
Fixpoint close_spaces (s : space) (sp : list space) (required : nat) (data : list byte) (ms : list meta)
  : nat * list byte * list meta :=
  match sp with
  | [] => (required, data, ms)
  | n :: r =>
    let tracked := fst s + snd s - required in
    let required := required + (fst n - (fst s + snd s)) in
    close_spaces n r required (memmove data tracked (fst n) (snd n)) (map (shift_in n required) ms)
  end.
Definition remove_range (b : block) (i j : nat) : block :=
  let gone := slice i j (bmeta b) in
  let sp := fold_left (fun sp m => cut sp (moff m) (msize m)) gone [(header_size, header_size + length (bdata b))] in
  let sp := match sp with [] => [] | s :: r => join_spaces s r end in
  let ms := firstn i (bmeta b) ++ skipn j (bmeta b) in
  let '(required, data, ms) :=
    match sp with [] => (0, bdata b, ms) | s :: r => close_spaces s r 0 (bdata b) ms end in
  {| bfull := bfull b; bdata := firstn (length (bdata b) - required) data; bmeta := ms;
     bcount := bcount b; buniq := buniq b;
     bavail := bavail b + list_sum (map msize gone) + (j - i) * metadata_size |}.

(** [remove_index] (177-193). *)
Definition remove_index (b : block) (k : pval) : bool * block :=
  let '(i, j) := find_index_range b k in
  if i =? j then (false, b)
  else
    (true,
     remove_range {| bfull := bfull b; bdata := bdata b; bmeta := bmeta b;
                     bcount := u32 (bcount b - Z.of_nat (j - i)); buniq := u32 (buniq b - 1); bavail := bavail b |} i j).

(** [contains_index] (195-199), [contains] (206-218), [item_count] (220-225), [get_item] (227-236), [get_items]
    (238-246). *)
Definition contains_index (b : block) (k : pval) : bool :=
  let '(i, j) := find_index_range b k in negb (i =? j).
Definition contains (b : block) (k : pval) (x : item) : bool :=
  let '(i, j) := find_index_range b k in existsb (same b x) (slice i j (bmeta b)).
Definition item_count (b : block) (k : pval) : nat := let '(i, j) := find_index_range b k in j - i.
Definition get_items (b : block) (k : pval) : list item :=
  let '(i, j) := find_index_range b k in map (read b) (slice i j (bmeta b)).
Definition get_item (b : block) (k : pval) (position : nat) : option item :=
  let '(i, j) := find_index_range b k in
  if j - i <=? position then None else option_map (read b) (nth_error (bmeta b) (i + position)).

(** [min_index], [max_index] (258-273). *)
Definition min_index (b : block) : pval := match rev (bmeta b) with [] => limit_min | m :: _ => mkey m end.
Definition max_index (b : block) : pval := match bmeta b with [] => limit_max | m :: _ => mkey m end.

(** [std::unique] on keys (431): of equal neighbours the first is kept. *)
Fixpoint unique_from (p : pval) (l : list pval) : list pval :=
  match l with [] => [] | k :: r => if equal p k then unique_from p r else k :: unique_from k r end.
Definition unique_keys (l : list pval) : list pval := match l with [] => [] | k :: r => k :: unique_from k r end.

(** [split(count)] (406-444): the first [count] metadata (the greatest keys) go to a new block of the same size.
    The result is (the new block, this block).  The loop (426-430) goes from the last of them to the first; the results
    of its appends are not looked at. *)
Definition split_move (b : block) (count : nat) : block :=
  fold_left (fun nb m => snd (append nb (mkey m) (read b m))) (rev (firstn count (bmeta b))) (initialize (bfull b)).
Definition split (b : block) (count : nat) : res (block * block) :=
  if count =? 0 then Ok (initialize (bfull b), b)
  else if (Z.of_nat count =? bcount b)%Z then Ok (b, initialize (bfull b))
  else
    match nth_error (bmeta b) count with
    | None => Err UB
    | Some at_split =>
      let moved := unique_keys (map mkey (rev (firstn count (bmeta b)))) in
      let front := match moved with [] => mkey at_split | k :: _ => k end in
      let lost := (Z.of_nat (length moved) - (if equal (mkey at_split) front then 1 else 0))%Z in
      Ok (split_move b count,
          remove_range {| bfull := bfull b; bdata := bdata b; bmeta := bmeta b;
                          bcount := u32 (bcount b - Z.of_nat count); buniq := u32 (buniq b - lost);
                          bavail := bavail b |} 0 count)
    end.

(** [split_uniques(count)] (446-486): the [count] greatest different keys go to a new block of the same size.
    [uniques_end] is the loop (473-482): the number of moved metadata.  The items are appended by their own key
    ([append(item)], 89-92 with [key_func_]), which is the key they are stored under. *)
Fixpoint uniques_end (prev : pval) (l : list meta) (index_count count moved : nat) : nat :=
  match l with
  | [] => moved
  | m :: r =>
    if index_count <=? count then
      if not_equal (mkey m) prev then uniques_end (mkey m) r (index_count + 1) count (moved + 1)
      else uniques_end prev r index_count count (moved + 1)
    else moved
  end.
Definition split_uniques (b : block) (count : nat) : res (block * block) :=
  if count =? 0 then Ok (initialize (bfull b), b)
  else if (Z.of_nat count =? buniq b)%Z then Ok (b, initialize (bfull b))
  else
    match bmeta b with
    | [] => Err UB
    | m0 :: r =>
      let n := uniques_end (mkey m0) r 1 count 0 in
      if n =? 0 then Err UB
      else
        Ok (fold_left (fun nb m => snd (append nb (mkey m) (read b m))) (firstn n (bmeta b)) (initialize (bfull b)),
            remove_range {| bfull := bfull b; bdata := bdata b; bmeta := bmeta b;
                            bcount := u32 (bcount b - Z.of_nat n); buniq := u32 (buniq b - Z.of_nat count);
                            bavail := bavail b |} 0 n)
    end.

(** [split_append(index, item)] (338-404).  [mid_point] is the loop (350-352): the number of metadata passed and their
    accumulated size. *)
Fixpoint mid_point (l : list meta) (half passed acc : nat) : nat * nat :=
  match l with
  | [] => (passed, acc)
  | m :: r => if acc <? half then mid_point r half (passed + 1) (acc + (msize m + metadata_size)) else (passed, acc)
  end.
(** Where the item is to go: [None] when appending after the split is judged impossible; [Some true]: to this block. *)
Definition decide (b : block) (k : pval) (size : nat) : nat * option bool :=
  let '(n, acc) := mid_point (bmeta b) (Nat.div2 (bfull b)) 0 0 in
  let at_split := nth_error (bmeta b) n in
  let acc := match at_split with Some m => acc + (msize m + metadata_size) | None => acc end in
  let split_index := match at_split with Some m => mkey m | None => limit_min end in
  (n,
   if match at_split with None => greater k (min_index b) && less k (max_index b) | Some _ => false end then None
   else if less split_index k then (if size + acc <? bfull b - metadata_size then Some false else None)
   else (if size + metadata_size <? bavail b + acc then Some true else None)).
(** The result: this block, the first and the second block of the returned pair. *)
Definition split_append (b : block) (k : pval) (x : item) : res (block * block * option block) :=
  let '(n, where_to) := decide b k (length x) in
  match where_to with
  | Some this_block =>
    do '(nb, b1) <- split b n;
    if this_block : bool then Ok (snd (append b1 k x), nb, None) else Ok (b1, snd (append nb k x), None)
  | None =>
    let i := fst (find_index_range b k) in
    let fresh := snd (append (initialize (align_to_block_size (length x + header_size + metadata_size))) k x) in
    if i =? 0 then Ok (b, fresh, None)
    else
      do '(nb, b1) <- split b i;
      let '(done, b2) := append b1 k x in
      if done : bool then Ok (b2, nb, None)
      else
        let '(done, nb2) := append nb k x in
        if done : bool then Ok (b1, nb2, None) else Ok (b1, fresh, Some nb)
  end.

(** [merge(other)] (488-553).  First case (499-521): the keys of the other block are not below the own ones.  Second case
    (522-545): they are not above; the own metadata are copied down [other->count()] entries (not [count()]), the other
    metadata are written over the old place, and the offsets from there to the end are all moved on.  With fewer own
    metadata than the other block has this leaves the memory of the block ([UB]); for string keys the pointers end up
    at unrelated bytes ([UB] here).  Third case (546-551): the items are read from the own memory at the offsets of the
    other block; [UB] when these bytes are free memory. *)
Definition add_offset (d : nat) (m : meta) : meta := {| moff := moff m + d; msize := msize m; mkey := mkey m |}.
Definition is_string (v : pval) : bool := match v with PStr _ => true | _ => false end.
Fixpoint merge_one_by_one (b : block) (l : list meta) : res block :=
  match l with
  | [] => Ok b
  | m :: r =>
    if header_size + length (bdata b) <? moff m + msize m then Err UB
    else merge_one_by_one (snd (append b (mkey m) (read b m))) r
  end.
Definition merge (b o : block) : res block :=
  if (bcount o =? 0)%Z then Ok b
  else if greater_equal (min_index o) (max_index b) then
    let overlap := (if equal (min_index o) (max_index b) then 1 else 0)%Z in
    Ok {| bfull := bfull b; bdata := bdata b ++ bdata o;
          bmeta := map (add_offset (length (bdata b))) (bmeta o) ++ bmeta b;
          bcount := u32 (bcount b + bcount o); buniq := u32 (buniq b + buniq o - overlap);
          bavail := bavail b - (length (bdata o) + metadata_size * Z.to_nat (bcount o)) |}
  else if less_equal (max_index o) (min_index b) then
    let overlap := (if equal (max_index o) (min_index b) then 1 else 0)%Z in
    let n := Z.to_nat (bcount o) in
    if (length (bmeta b) <? n) || existsb (fun m => is_string (mkey m)) (bmeta b ++ bmeta o) then Err UB
    else
      Ok {| bfull := bfull b; bdata := bdata b ++ bdata o;
            bmeta := firstn n (bmeta b) ++ map (add_offset (length (bdata b))) (bmeta o ++ skipn n (bmeta b));
            bcount := u32 (bcount b + bcount o); buniq := u32 (buniq b + buniq o - overlap);
            bavail := bavail b - (length (bdata o) + metadata_size * n) |}
  else merge_one_by_one b (rev (bmeta o)).
