(** What dividing, balancing and joining segment trees are to do. *)
From Verif Require Import Bytes Outcome PhysModel PhysSpec BlockModel BlockSpec SegModel SegSpec SegCutModel.
From Coq Require Import ZArith Sorting.Permutation.

(** The number of different keys of a collection. *)
Definition kinds (l : bag) : nat := distinct (map fst l).

(** Every key of [l] is less than every key of [l']. *)
Definition below (l l' : bag) : Prop := forall e e', In e l -> In e' l' -> less (fst e) (fst e') = true.

(** No key is stored in two blocks. *)
Definition unshared (t : tree) : Prop := ForallOrdPairs (fun n n' => less (nmax n) (nmin n') = true) (nodes t).

(** The counter of keys is right. *)
Definition keys_counted (t : tree) (l : bag) : Prop := ucount t = Z.of_nat (kinds l) /\ (Z.of_nat (kinds l) < 2 ^ 63)%Z.

(** NULL is no key. *)
Definition no_null (l : bag) : Prop := forall e, In e l -> fst e <> PNull.

(** Changed since the tree was last written. *)
Definition unsaved (n : node) : Prop := nblk n <> None /\ nmod n = true.

(** The same tree with every block in memory marked as changed: the tree as it is in memory, whatever is in the file. *)
Definition touch_node (n : node) : node :=
  match nblk n with
  | Some _ => {| nblk := nblk n; ndisk := ndisk n; nmod := true; nmin := nmin n; nmax := nmax n |}
  | None => n
  end.
Definition in_memory (t : tree) : tree := {| nodes := map touch_node (nodes t); icount := icount t; ucount := ucount t |}.
