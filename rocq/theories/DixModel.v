(** The index on disk: services/disk/index_disk.cpp and the search of services/disk/index_agent_disk.cpp (109-147), over the
    B+-tree of BtModel.v.
    Simplifications: keys are integers that fit in 64 bits.  A comparison of [physical_value]s of integer types is one of
    integers (PhysModel.v), so that the tree has the integer as its index.  The least and the greatest [physical_value]
    are integers outside of that range.  The limit 2^64 - 1 of a scan is one that is not reached. *)
From Coq Require Import List ZArith Bool.
From Verif Require Import Bytes Outcome ByteOrd MsgpackModel OidModel.
From Verif Require TapeModel DocPackModel BtModel IndexModel.
Import ListNotations.
Local Open Scope Z_scope.

(** The item of a key and an id: an array of two (index_disk.cpp 78-82). *)
Definition item (k : Z) (o : oid) : list byte :=
  enc_arr_head 2 ++ DocPackModel.pack_int k ++ enc (MStr (to_string o)).
(** [item_key_getter] and [id_getter] (11-24): the fields "/0" and "/1" (msgpack_reader.hpp 11-68). *)
Definition item_key (x : list byte) : res Z :=
  match unpack x with
  | Some (MArr (MUint n :: _), _) => Ok (Z.of_N n)
  | Some (MArr (MNeg n :: _), _) => Ok (- Z.of_N n - 1)
  | _ => Err UB
  end.
Definition item_id (x : list byte) : res oid :=
  match unpack x with
  | Some (MArr (_ :: MStr s :: _), _) => Ok (parse s)
  | _ => Err UB
  end.
Fixpoint item_ids (l : list (list byte)) : res (list oid) :=
  match l with [] => Ok [] | x :: r => do o <- item_id x; do os <- item_ids r; Ok (o :: os) end.

(** The tree, and what the last [flush] wrote: [flush] does nothing when the tree has no leaf (b_plus_tree.cpp 744-747).
    That a leaf comes back from its file is the subject of C30, C65 and C66. *)
Record index := { tree : BtModel.bt; saved : option (Z * list BtModel.leaf) }.
Definition index0 : index := {| tree := BtModel.bt0; saved := None |}.
Definition flush (t : BtModel.bt) (s : option (Z * list BtModel.leaf)) : index :=
  {| tree := t; saved := match BtModel.leaves t with [] => s | _ => Some (BtModel.icount t, BtModel.leaves t) end |}.
(** The constructor (64-70) in a new process. *)
Definition reopen (M : nat) (x : index) : index :=
  {| tree := match saved x with None => BtModel.bt0 | Some (n, ls) => BtModel.load M n ls end; saved := saved x |}.

(** [find] (107-120). *)
Definition find (x : index) (k : Z) : res (list oid) := do l <- BtModel.get_items (tree x) k; item_ids l.
Definition oid_eqb (a b : oid) : bool := beqb a b.

(** [insert] (74-86). *)
Definition insert (M : nat) (x : index) (k : Z) (o : oid) : res index :=
  do os <- find x k;
  if existsb (oid_eqb o) os then Ok x
  else
    let i := item k o in
    do ik <- item_key i;
    do '(_, t) <- BtModel.append M (tree x) ik i;
    Ok (flush t (saved x)).

(** [remove(key, doc)] (93-105). *)
Definition remove (M : nat) (x : index) (k : Z) (o : oid) : res index :=
  do os <- find x k;
  match os with
  | [] => Ok x
  | _ =>
    let i := item k o in
    do ik <- item_key i;
    do '(_, t) <- BtModel.remove M (tree x) ik i;
    Ok (flush t (saved x))
  end.

(** [lower_bound] and [upper_bound] (122-160): everything up to the key, or down to it, without the key. *)
Definition least : Z := - 2 ^ 64.
Definition greatest : Z := 2 ^ 65.
Definition all (t : BtModel.bt) : nat := S (length (flat_map BtModel.ents (BtModel.leaves t))).
Definition lower_bound (x : index) (k : Z) : res (list oid) :=
  do l <- BtModel.scan_ascending (tree x) (fun e => negb (fst e =? k)) least k (all (tree x)); item_ids (map snd l).
Definition upper_bound (x : index) (k : Z) : res (list oid) :=
  do l <- BtModel.scan_decending (tree x) (fun e => negb (fst e =? k)) k greatest (all (tree x)); item_ids (map snd l).

(** [index_agent_disk_t::find] (index_agent_disk.cpp 109-147): the results are collected in one vector. *)
Definition both (a b : res (list oid)) : res (list oid) := do x <- a; do y <- b; Ok (x ++ y).
Definition agent_find (x : index) (c : IndexModel.cmp) (k : Z) : res (list oid) :=
  match c with
  | IndexModel.CEq => find x k
  | IndexModel.CNe => both (lower_bound x k) (upper_bound x k)
  | IndexModel.CGt => upper_bound x k
  | IndexModel.CLt => lower_bound x k
  | IndexModel.CGte => both (find x k) (upper_bound x k)
  | IndexModel.CLte => both (lower_bound x k) (find x k)
  end.

(** The calls of the index. *)
Inductive op := Insert (k : Z) (o : oid) | Remove (k : Z) (o : oid) | Find (c : IndexModel.cmp) (k : Z) | Restart.
Definition step (M : nat) (x : index) (p : op) : res (list oid * index) :=
  match p with
  | Insert k o => do y <- insert M x k o; Ok ([], y)
  | Remove k o => do y <- remove M x k o; Ok ([], y)
  | Find c k => do os <- agent_find x c k; Ok (os, x)
  | Restart => Ok ([], reopen M x)
  end.
Fixpoint run (M : nat) (x : index) (ps : list op) : res (list (list oid) * index) :=
  match ps with
  | [] => Ok ([], x)
  | p :: r => do '(os, y) <- step M x p; do '(oss, z) <- run M y r; Ok (os :: oss, z)
  end.

(** ** A collection with such an index *)
(** Documents have an id and an integer in the indexed field.  [memory] is the multimap of IndexModel.v, in which a
    document is a number. *)
Record coll := { docs : list (oid * Z); memory : list (LValModel.lval * N); disk : index }.
Definition number (o : oid) : N := unbe o.
Definition key (k : Z) : LValModel.lval := LValModel.VNum LValModel.TI64 k.

(** [create_index_finish] (services/collection/create_index.cpp 32-60): the index in memory is filled from the collection.
    For the disk [insert_many] is sent, which the agent does not handle (index_agent_disk.cpp 35-56): the message is
    dropped. *)
Definition fill (l : list (oid * Z)) : list (LValModel.lval * N) :=
  fold_left (fun m d => IndexModel.insert_entry (key (snd d)) (number (fst d)) m) l [].
Definition create (l : list (oid * Z)) : coll := {| docs := l; memory := fill l; disk := index0 |}.

(** [insert_document] and [delete_document] (index_engine.cpp 220-248) with the collection.  The messages to the disk are
    handled in the order they are sent. *)
Definition add (M : nat) (c : coll) (o : oid) (k : Z) : res coll :=
  do x <- insert M (disk c) k o;
  Ok {| docs := docs c ++ [(o, k)]; memory := IndexModel.insert_entry (key k) (number o) (memory c); disk := x |}.
Definition delete (M : nat) (c : coll) (o : oid) (k : Z) : res coll :=
  do m <- IndexModel.remove_key (key k) (memory c);
  do x <- remove M (disk c) k o;
  Ok {| docs := filter (fun d => negb (oid_eqb o (fst d))) (docs c); memory := m; disk := x |}.

(** [index_scan] (collection index_scan.cpp 59-93) with [index_find_finish] (create_index.cpp 81-99) and
    [sync_index_from_disk] (index_engine.cpp 299-311): the ids of the disk replace what is in memory, which is then
    searched.  An id that is not in the collection is the end iterator. *)
Fixpoint found (l : list (oid * Z)) (os : list oid) : res (list (oid * Z)) :=
  match os with
  | [] => Ok []
  | o :: r =>
    match List.find (fun d => oid_eqb o (fst d)) l with
    | None => Err UB
    | Some d => do ds <- found l r; Ok (d :: ds)
    end
  end.
Definition query (c : coll) (p : IndexModel.cmp) (k : Z) (limit : Z) : res (list N * coll) :=
  do os <- agent_find (disk c) p k;
  do ds <- found (docs c) os;
  let m := fill ds in
  Ok (map snd (IndexModel.search p (key k) limit m), {| docs := docs c; memory := m; disk := disk c |}).

Inductive act := Add (o : oid) (k : Z) | Delete (o : oid) (k : Z) | Query (p : IndexModel.cmp) (k limit : Z).
Definition perform (M : nat) (c : coll) (a : act) : res (list N * coll) :=
  match a with
  | Add o k => do c' <- add M c o k; Ok ([], c')
  | Delete o k => do c' <- delete M c o k; Ok ([], c')
  | Query p k limit => query c p k limit
  end.
Fixpoint history (M : nat) (c : coll) (l : list act) : res (list (list N) * coll) :=
  match l with
  | [] => Ok ([], c)
  | a :: r => do '(x, c1) <- perform M c a; do '(xs, c2) <- history M c1 r; Ok (x :: xs, c2)
  end.
