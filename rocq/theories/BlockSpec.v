(** What a block of the B+tree is to its users: a collection of items, each under a key. *)
From Verif Require Import Bytes Outcome PhysModel PhysSpec BlockModel.
From Coq Require Import ZArith Sorting.Permutation Sorting.Sorted.

Notation entry := (pval * list byte)%type (only parsing).

(** The stored items with their keys, as their metadata describe them. *)
Definition items (b : block) : list entry := map (fun m => (mkey m, read b m)) (bmeta b).

(** A collection of items.  Its size in a block: the bytes, 24 bytes of metadata for each, and a header of 16 bytes. *)
Notation bag := (list (pval * list byte)) (only parsing).
Definition room (l : bag) : nat := 16 + list_sum (map (fun e => length (snd e) + 24) l).

(** The item [x] under a key equal to [k]. *)
Definition is_entry (k : pval) (x : list byte) (e : entry) : bool :=
  equal k (fst e) && if list_eq_dec ascii_dec x (snd e) then true else false.
Definition has_entry (l : bag) (k : pval) (x : list byte) : bool := existsb (is_entry k x) l.
Definition has_key (l : bag) (k : pval) : bool := existsb (fun e => equal k (fst e)) l.

(** What the operations are to do and to answer. *)
Definition bag_append (size : nat) (l : bag) (k : pval) (x : list byte) : bool * bag :=
  if (room ((k, x) :: l) <=? size) && negb (has_entry l k x) then (true, (k, x) :: l) else (false, l).
Definition bag_remove (l : bag) (k : pval) (x : list byte) : bool * bag :=
  (has_entry l k x, filter (fun e => negb (is_entry k x e)) l).
Definition bag_remove_key (l : bag) (k : pval) : bool * bag :=
  (has_key l k, filter (fun e => negb (equal k (fst e))) l).

Inductive op := Append (k : pval) (x : list byte) | Remove (k : pval) (x : list byte) | RemoveKey (k : pval).

Definition bag_step (size : nat) (l : bag) (o : op) : bool * bag :=
  match o with
  | Append k x => bag_append size l k x
  | Remove k x => bag_remove l k x
  | RemoveKey k => bag_remove_key l k
  end.
Definition block_step (b : block) (o : op) : bool * block :=
  match o with
  | Append k x => append b k x
  | Remove k x => remove b k x
  | RemoveKey k => remove_index b k
  end.

Fixpoint run {S} (step : S -> op -> bool * S) (s : S) (os : list op) : list bool * S :=
  match os with
  | [] => ([], s)
  | o :: r => let '(a, s1) := step s o in let '(l, s2) := run step s1 r in (a :: l, s2)
  end.

(** Keys of one set without rounding (see C45), items that are not empty. *)
Definition op_ok (r : regime) (o : op) : Prop :=
  match o with
  | Append k x => exact r k /\ x <> []
  | Remove k x => exact r k
  | RemoveKey k => exact r k
  end.

(** Removals ask only for items that are stored, or whose key is not stored at all. *)
Definition removes_stored (l : bag) (o : op) : bool :=
  match o with Remove k x => has_entry l k x || negb (has_key l k) | _ => true end.
Fixpoint all_removes_stored (size : nat) (l : bag) (os : list op) : bool :=
  match os with
  | [] => true
  | o :: r => removes_stored l o && all_removes_stored size (snd (bag_step size l o)) r
  end.

(** The items lie one after another without gaps from byte 16 on, in some order; [cl] are the metadata with the bytes
    they describe. *)
Fixpoint laid (off : nat) (cl : list (meta * list byte)) : Prop :=
  match cl with
  | [] => True
  | (m, d) :: r => moff m = off /\ msize m = length d /\ d <> [] /\ laid (off + length d) r
  end.

(** The number of different keys. *)
Fixpoint distinct (l : list pval) : nat :=
  match l with [] => 0 | k :: r => if existsb (equal k) r then distinct r else S (distinct r) end.

(** A block in order: keys decreasing, no item stored twice, bytes accounted for, counters right. *)
Record valid (r : regime) (b : block) : Prop := {
  valid_keys : Forall (fun m => exact r (mkey m)) (bmeta b);
  valid_sorted : StronglySorted (fun m m' => less (mkey m) (mkey m') = false) (bmeta b);
  valid_once : ForallOrdPairs (fun e e' => is_entry (fst e) (snd e) e' = false) (items b);
  valid_laid : exists cl, Permutation (map fst cl) (bmeta b) /\ laid 16 cl /\ bdata b = concat (map snd cl);
  valid_space : 16 + length (bdata b) + bavail b + 24 * length (bmeta b) = bfull b;
  valid_full : (Z.of_nat (bfull b) < 2 ^ 32)%Z;
  valid_count : bcount b = Z.of_nat (length (bmeta b));
  valid_uniq : buniq b = Z.of_nat (distinct (map fst (items b))) }.

(** No two items share a byte, none reaches past the bytes of the items, and these end before the metadata. *)
Definition no_overlap (b : block) : Prop :=
  (forall i j m m', i <> j -> nth_error (bmeta b) i = Some m -> nth_error (bmeta b) j = Some m' ->
     moff m + msize m <= moff m' \/ moff m' + msize m' <= moff m) /\
  (forall m, In m (bmeta b) -> 16 <= moff m /\ moff m + msize m <= 16 + length (bdata b)) /\
  16 + length (bdata b) + 24 * length (bmeta b) <= bfull b.

(** No key of [l] is below a key of [l']. *)
Definition above (l l' : bag) : Prop := forall e e', In e l -> In e' l' -> less (fst e) (fst e') = false.

Definition items_opt (o : option block) : bag := match o with Some b => items b | None => [] end.

(** The estimate of [split_append] is right: the half into which the item is to go has room for it. *)
Definition estimate_right (b : block) (k : pval) (x : list byte) : bool :=
  match decide b k (length x) with
  | (n, Some true) => room ((k, x) :: skipn n (items b)) <=? bfull b
  | (n, Some false) => room ((k, x) :: firstn n (items b)) <=? bfull b
  | (_, None) => true
  end.

(** Items of at most a quarter of the block, its header and metadata included. *)
Definition quarter (size : nat) (x : list byte) : Prop := 4 * (length x + 24 + 16) <= size.
