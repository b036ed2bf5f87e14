(** * What C78 and C32 say, without the helpers of the model

    A tree is a dictionary: a collection of (index, item) pairs. *)
From Coq Require Import List ZArith Lia Arith Bool Permutation Sorted.
From Verif Require Import Bytes Outcome BtModel.
Import ListNotations.

(** the calls of btree_t *)
Inductive op :=
| Append (k : Z) (x : list byte)
| Remove (k : Z) (x : list byte)
| RemoveIndex (k : Z)
| Get (k : Z)
| Size
| FullScan
| Ascending (pred : entry -> bool) (lo hi : Z) (limit : nat)
| Descending (pred : entry -> bool) (lo hi : Z) (limit : nat).

Inductive out := OB (b : bool) | OI (l : list (list byte)) | OZ (z : Z) | OE (l : list entry).

Definition step (M : nat) (t : bt) (o : op) : res (out * bt) :=
  match o with
  | Append k x => do '(r, t') <- append M t k x; Ok (OB r, t')
  | Remove k x => do '(r, t') <- remove M t k x; Ok (OB r, t')
  | RemoveIndex k => do '(r, t') <- remove_index M t k; Ok (OB r, t')
  | Get k => do r <- get_items t k; Ok (OI r, t)
  | Size => Ok (OZ (size t), t)
  | FullScan => do r <- full_scan t; Ok (OE r, t)
  | Ascending pred lo hi limit => do r <- scan_ascending t pred lo hi limit; Ok (OE r, t)
  | Descending pred lo hi limit => do r <- scan_decending t pred lo hi limit; Ok (OE r, t)
  end.

Fixpoint run (M : nat) (t : bt) (ops : list op) : res (list out * bt) :=
  match ops with
  | [] => Ok ([], t)
  | o :: ops' =>
      do '(r, t1) <- step M t o;
      do '(rs, t2) <- run M t1 ops';
      Ok (r :: rs, t2)
  end.

(** the dictionary after a call *)
Definition after (d : list entry) (o : op) : list entry :=
  match o with
  | Append k x => (k, x) :: d
  | Remove k _ | RemoveIndex k => filter (fun e => negb (fst e =? k)%Z) d
  | _ => d
  end.

(** calls that keep one item per index: an index is appended when it is not there, and what is removed is there;
    a scan asks for at least one entry *)
Definition careful (d : list entry) (o : op) : Prop :=
  match o with
  | Append k _ => ~ In k (map fst d)
  | Remove k x => In (k, x) d
  | RemoveIndex k => In k (map fst d)
  | Ascending _ _ _ limit | Descending _ _ _ limit => limit <> 0
  | _ => True
  end.

Fixpoint careful_all (d : list entry) (ops : list op) : Prop :=
  match ops with [] => True | o :: ops' => careful d o /\ careful_all (after d o) ops' end.

(** the entries of a dictionary in the order of their indices *)
Definition ascending (l : list entry) : Prop := StronglySorted (fun a b => (fst a < fst b)%Z) l.
Definition in_order (d l : list entry) : Prop := Permutation l d /\ ascending l.

Definition within (pred : entry -> bool) (lo hi : Z) (e : entry) : bool :=
  ((lo <=? fst e) && (fst e <=? hi))%Z && pred e.

(** the right answer *)
Definition answer (d : list entry) (o : op) (r : out) : Prop :=
  match o, r with
  | Append _ _, OB b | Remove _ _, OB b | RemoveIndex _, OB b => b = true
  | Get k, OI l => l = map snd (filter (fun e => fst e =? k)%Z d)
  | Size, OZ z => z = Z.of_nat (length d)
  | FullScan, OE l => in_order d l
  | Ascending pred lo hi limit, OE l =>
      forall s, in_order d s -> l = firstn limit (filter (within pred lo hi) s)
  | Descending pred lo hi limit, OE l =>
      forall s, in_order d s -> l = firstn limit (filter (within pred lo hi) (rev s))
  | _, _ => False
  end.

Fixpoint answers (d : list entry) (ops : list op) (rs : list out) : Prop :=
  match ops, rs with
  | [], [] => True
  | o :: ops', r :: rs' => answer d o r /\ answers (after d o) ops' rs'
  | _, _ => False
  end.

(** sessions: between two of them the tree is flushed and loaded in a new process, b_plus_tree.cpp:744-870.  That the
    file of a leaf gives back what the leaf holds is the subject of C30, C65 and C66.  An emptied tree is not written
    (745-747), which the hypothesis below excludes *)
Fixpoint sessions (M : nat) (t : bt) (ss : list (list op)) : res (list (list out)) :=
  match ss with
  | [] => Ok []
  | ops :: ss' =>
      do '(rs, t1) <- run M t ops;
      match leaves t1 with
      | [] => Err Throw
      | _ => do rss <- sessions M (load M (icount t1) (leaves t1)) ss'; Ok (rs :: rss)
      end
  end.

Fixpoint careful_sessions (d : list entry) (ss : list (list op)) : Prop :=
  match ss with
  | [] => True
  | ops :: ss' => careful_all d ops /\ fold_left after ops d <> [] /\ careful_sessions (fold_left after ops d) ss'
  end.

Fixpoint answers_sessions (d : list entry) (ss : list (list op)) (rss : list (list out)) : Prop :=
  match ss, rss with
  | [], [] => True
  | ops :: ss', rs :: rss' => answers d ops rs /\ answers_sessions (fold_left after ops d) ss' rss'
  | _, _ => False
  end.

(** the ids of the files of the leaves that are in use *)
Definition file_ids (t : bt) : list nat := map lid (leaves t).

(** what a flush followed by a load in a new process does to the ids: the leaves and their ids come back from the
    metadata, b_plus_tree.cpp:744-870; whether the contents of the files are right is not asked here.
    An emptied tree is not written (745-747): what comes back then is an older state, which this definition
    leaves out with [Err Throw] *)
Inductive call := Op (o : op) | Restart.

Definition calls_step (M : nat) (t : bt) (c : call) : res bt :=
  match c with
  | Op o => do '(_, t') <- step M t o; Ok t'
  | Restart =>
      match leaves t, missed t with
      | [], [] => Ok bt0
      | [], _ => Err Throw
      | ls, _ => Ok (load M (icount t) ls)
      end
  end.

Fixpoint calls (M : nat) (t : bt) (cs : list call) : res bt :=
  match cs with [] => Ok t | c :: cs' => do t' <- calls_step M t c; calls M t' cs' end.

(** a restart happens only while no file id has become free *)
Fixpoint no_gap (M : nat) (t : bt) (cs : list call) : Prop :=
  match cs with
  | [] => True
  | c :: cs' =>
      (c = Restart -> missed t = []) /\
      match calls_step M t c with Ok t' => no_gap M t' cs' | Err _ => True end
  end.
