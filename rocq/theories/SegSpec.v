(** What a segment tree is to its users: a collection of items, each under a key; and what keeps it in order. *)
From Verif Require Import Bytes Outcome PhysModel PhysSpec BlockModel BlockSpec SegModel.
From Coq Require Import ZArith Sorting.Permutation.

Definition default_size : nat := N.to_nat DEFAULT_BLOCK_SIZE.

(** ** Operations *)
Inductive top := TAppend (k : pval) (x : list byte) | TRemove (k : pval) (x : list byte) | TRemoveKey (k : pval) | TReload.

(** On a plain collection. *)
Definition col_step (l : bag) (o : top) : bool * bag :=
  match o with
  | TAppend k x => if has_entry l k x then (false, l) else (true, (k, x) :: l)
  | TRemove k x => bag_remove l k x
  | TRemoveKey k => bag_remove_key l k
  | TReload => (true, l)
  end.
Fixpoint col_run (l : bag) (os : list top) : list bool * bag :=
  match os with
  | [] => ([], l)
  | o :: r => let '(a, l1) := col_step l o in let '(s, l2) := col_run l1 r in (a :: s, l2)
  end.

(** On a segment tree; [sparse] is the comparison of floating point numbers before merging. *)
Definition seg_step (sparse : nat -> nat -> bool) (t : tree) (o : top) : res (bool * tree) :=
  match o with
  | TAppend k x => seg_append t k x
  | TRemove k x => seg_remove sparse t k x
  | TRemoveKey k => seg_remove_key t k
  | TReload => Ok (true, flush_and_load t)
  end.
Fixpoint seg_run (sparse : nat -> nat -> bool) (t : tree) (os : list top) : res (list bool * tree) :=
  match os with
  | [] => Ok ([], t)
  | o :: r => do '(a, t1) <- seg_step sparse t o; do '(s, t2) <- seg_run sparse t1 r; Ok (a :: s, t2)
  end.

(** Keys of one set without rounding (C45); items not empty and of at most a quarter of a block (C29). *)
Definition top_ok (r : regime) (o : top) : Prop :=
  match o with
  | TAppend k x => exact r k /\ x <> [] /\ quarter default_size x
  | TRemove k _ => exact r k
  | TRemoveKey k => exact r k
  | TReload => True
  end.

(** Items are removed only when stored, and keys only as long as everything is in memory. *)
Fixpoint careful (in_memory : bool) (l : bag) (os : list top) : bool :=
  match os with
  | [] => true
  | o :: r =>
    match o with TRemove k x => has_entry l k x | TRemoveKey _ => in_memory | _ => true end &&
    careful (match o with TReload => false | _ => in_memory end) (snd (col_step l o)) r
  end.

(** ** Order *)
(** The bounds kept beside the blocks are in order; equal keys may reach over several blocks. *)
Definition ordered (r : regime) (l : list node) : Prop :=
  Forall (fun n => exact r (nmin n) /\ exact r (nmax n) /\ less (nmax n) (nmin n) = false) l /\
  ForallOrdPairs (fun n n' => less (nmin n') (nmax n) = false) l.

(** A key lies within the bounds of a node. *)
Definition may_hold (n : node) (k : pval) : Prop := less k (nmin n) = false /\ less (nmax n) k = false.

(** The node stands for block [b]: in memory, or else in the file; and in the file when not modified. *)
Record node_ok (n : node) (b : block) : Prop := {
  node_mem : nblk n = Some b \/ nblk n = None;
  node_disk : nblk n = None \/ nmod n = false -> ndisk n = Some b;
  node_min : nmin n = min_index b;
  node_max : nmax n = max_index b }.

Definition its (bs : list block) : bag := concat (map items bs).

Record blocks_ok (r : regime) (bs : list block) : Prop := {
  each_valid : Forall (fun b => valid r b /\ items b <> [] /\ bfull b = default_size) bs;
  in_order : ForallOrdPairs (fun b b' => above (items b') (items b)) bs;
  each_once : ForallOrdPairs (fun e e' => is_entry (fst e) (snd e) e' = false) (its bs);
  each_small : Forall (fun e => quarter default_size (snd e)) (its bs) }.

(** The tree holds the items [l]. *)
Definition tree_holds (r : regime) (t : tree) (l : bag) : Prop :=
  exists bs, Forall2 node_ok (nodes t) bs /\ blocks_ok r bs /\ Permutation (its bs) l /\
    icount t = u64 (Z.of_nat (length l)).

Definition all_in_memory (t : tree) : Prop := Forall (fun n => nblk n <> None) (nodes t).

(** At most one block can hold the key. *)
Definition one_block (t : tree) (k : pval) : Prop :=
  forall p q n m, nth_error (nodes t) p = Some n -> nth_error (nodes t) q = Some m -> may_hold n k -> may_hold m k -> p = q.
Definition no_removal (o : top) : bool := match o with TRemove _ _ => false | _ => true end.
