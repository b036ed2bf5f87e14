(** Segment trees (core/b_plus_tree/segment_tree.cpp): dividing one tree into two ([split] 371-428), moving keys between
    neighbours ([balance_with] 430-535), joining two ([merge] 537-572); and reading all items through the iterators.
    The simplifications are those of SegModel.v.  A pointer one before the first metadata (384, 443) is not an error
    here; the vectors do not grow beyond what was reserved (382-383, 439-440), so that the iterators stay good. *)
From Verif Require Import Bytes Outcome PhysModel BlockModel SegModel.
From Coq Require Import ZArith.

(** [min_index], [max_index] (705-719). *)
Definition tree_min (t : tree) : pval := match nodes t with [] => limit_min | n :: _ => nmin n end.
Definition tree_max (t : tree) : pval := match rev (nodes t) with [] => limit_max | n :: _ => nmax n end.

(** [size_t count -= (a == b)], [size_t count + (a == b)]. *)
Definition one_if (b : bool) : Z := if b then 1 else 0.

(** [update_metadata_] (939-956) without setting [modified]. *)
Definition shrunk (n : node) (b : block) : node :=
  {| nblk := Some b; ndisk := ndisk n; nmod := nmod n; nmin := min_index b; nmax := max_index b |}.
Definition update_bounds (l : list node) (i : nat) (b : block) : list node :=
  match nth_error l i with Some n => set_nth i (shrunk n b) l | None => l end.

(** The loops (384-425) and (443-486): blocks from the end of [src] go to the beginning of [dst] until [want] keys have
    moved.  [c] blocks of [src] are left, [prev] is the least key of the block moved last, [PNull] at first
    ([index_t prev_index{}]).  The result is ([src], [dst]). *)
Fixpoint take_high (c : nat) (prev : pval) (want : Z) (src dst : tree) : res (tree * tree) :=
  match c with
  | O => Ok (src, dst)
  | S c' =>
    do '(b, l) <- load_at (nodes src) c';
    let count := u64 (buniq b - one_if (equal prev (max_index b))) in
    if (count <=? want)%Z then
      take_high c' (min_index b) (want - count)
        {| nodes := erase c' (c' + 1) l; icount := u64 (icount src - bcount b); ucount := u64 (ucount src - count) |}
        {| nodes := new_node b :: nodes dst; icount := u64 (icount dst + bcount b); ucount := u64 (ucount dst + count) |}
    else
      let split_unique := u64 (want + one_if (equal prev (min_index b))) in
      if ((split_unique =? 0) || (split_unique =? buniq b))%Z
      then Ok ({| nodes := l; icount := icount src; ucount := ucount src |}, dst)
      else
        do '(nb, b1) <- split_uniques b (Z.to_nat split_unique);
        let moved := u64 (bcount b - bcount b1) in
        Ok ({| nodes := update_bounds l c' b1; icount := u64 (icount src - moved); ucount := u64 (ucount src - want) |},
            {| nodes := new_node nb :: nodes dst; icount := u64 (icount dst + moved); ucount := u64 (ucount dst + want) |})
  end.

(** The loop (489-533): blocks from the beginning of [src] go to the end of [dst]; [prev] is the greatest key of the block
    moved last.  Here the block that is cut is marked as modified (525). *)
Fixpoint take_low (c : nat) (prev : pval) (want : Z) (src dst : tree) : res (tree * tree) :=
  match c with
  | O => Ok (src, dst)
  | S c' =>
    do '(b, l) <- load_at (nodes src) 0;
    let count := u64 (buniq b - one_if (equal prev (min_index b))) in
    if (count <=? want)%Z then
      take_low c' (max_index b) (want - count)
        {| nodes := erase 0 1 l; icount := u64 (icount src - bcount b); ucount := u64 (ucount src - count) |}
        {| nodes := nodes dst ++ [new_node b]; icount := u64 (icount dst + bcount b); ucount := u64 (ucount dst + count) |}
    else if ((count - want =? 0) || (count - want =? buniq b))%Z
    then Ok ({| nodes := l; icount := icount src; ucount := ucount src |}, dst)
    else
      do '(nb, b1) <- split_uniques b (Z.to_nat (count - want));
      let moved := u64 (bcount b - bcount nb) in
      Ok ({| nodes := update l 0 nb; icount := u64 (icount src - moved); ucount := u64 (ucount src - want) |},
          {| nodes := nodes dst ++ [new_node b1]; icount := u64 (icount dst + moved); ucount := u64 (ucount dst + want) |})
  end.

(** [split] (371-428): what is left, and the new tree. *)
Definition seg_split (t : tree) : res (tree * tree) :=
  take_high (length (nodes t)) PNull (ucount t / 2) t empty_tree.

(** [balance_with] (430-535): this tree and the other one afterwards. *)
Definition seg_balance (t o : tree) : res (tree * tree) :=
  let want := u64 (u64 (ucount t + ucount o) / 2 - ucount t) in
  do '(o', t') <-
    (if greater (tree_min t) (tree_max o) then take_high (length (nodes o)) PNull want o t
     else take_low (length (nodes o)) PNull want o t);
  Ok (t', o').

(** [merge] (537-572): all blocks of the other tree, loaded if need be, go to the beginning (551-558) or to the end
    (561-568) of this one. *)
Fixpoint all_high (c : nat) (l dst : list node) : res (list node) :=
  match c with
  | O => Ok dst
  | S c' => do '(b, l) <- load_at l c'; all_high c' (erase c' (c' + 1) l) (new_node b :: dst)
  end.
Fixpoint all_low (c : nat) (l dst : list node) : res (list node) :=
  match c with
  | O => Ok dst
  | S c' => do '(b, l) <- load_at l 0; all_low c' (erase 0 1 l) (dst ++ [new_node b])
  end.
Definition seg_merge (t o : tree) : res (tree * tree) :=
  do l <- (if greater (tree_min t) (tree_max o) then all_high (length (nodes o)) (nodes o) (nodes t)
           else all_low (length (nodes o)) (nodes o) (nodes t));
  Ok ({| nodes := l; icount := u64 (icount t + icount o); ucount := u64 (ucount t + ucount o) |}, empty_tree).

(** Reading all items in the order of their keys: [full_scan] (b_plus_tree.hpp 249-258) on one leaf, with the iterators
    over blocks (segment_tree.cpp 13-29) and over the items of a block (block.hpp 284-286: from the last metadata to the
    first in memory, that is from the least key on). *)
Fixpoint scan_from (l : list node) (i c : nat) : res (list (pval * item)) :=
  match c with
  | O => Ok []
  | S c' =>
    do '(b, l) <- load_at l i;
    do r <- scan_from l (i + 1) c';
    Ok (rev (map (fun m => (mkey m, read b m)) (bmeta b)) ++ r)
  end.
Definition seg_scan (t : tree) : res (list (pval * item)) := scan_from (nodes t) 0 (length (nodes t)).
