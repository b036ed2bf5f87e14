(** What a column shows: the list of its values, whatever form it has. *)
From Verif Require Import Bytes Outcome IndexingModel VecModel.
Local Open Scope nat_scope.

(** The values at the positions given; nothing if one is past the end. *)
Fixpoint pick {A} (l : list A) (ix : list nat) : option (list A) :=
  match ix with
  | [] => Some []
  | i :: r => match nth_error l i, pick l r with Some x, Some y => Some (x :: y) | _, _ => None end
  end.

(** ** One vector *)
(** How a vector comes about: from values, from one value for [n] rows, from numbers with equal steps. *)
Inductive source := Rows (capacity : nat) (l : list (option Z)) | Repeat (x : option Z) (n : nat) | Numbers (start inc : Z) (n : nat).
(** What is done with it: some of its rows in any order, an interval of them, writing it out, copying its rows from one
    on to a new vector, reading it through an index. *)
Inductive use := Select (ix : list nat) | Interval (from upto : nat) | Flatten | CopyFrom (from : nat) | Unify.

Definition numbers (start inc : Z) (n : nat) : list (option Z) := map (fun i => Some (start + inc * Z.of_nat i)%Z) (seq 0 n).
Definition shown (s : source) : list (option Z) :=
  match s with Rows _ l => l | Repeat x n => repeat x n | Numbers a d n => numbers a d n end.
Definition effect (l : list (option Z)) (u : use) : option (list (option Z)) :=
  match u with
  | Select ix => pick l ix
  | Interval a b => if (a <=? b) && (b <=? length l) then Some (firstn (b - a) (skipn a l)) else None
  | CopyFrom a => if a <=? length l then Some (skipn a l) else None
  | Flatten | Unify => Some l
  end.
Fixpoint effects (l : list (option Z)) (us : list use) : option (list (option Z)) :=
  match us with [] => Some l | u :: r => match effect l u with Some l' => effects l' r | None => None end end.

(** The calls. *)
Definition build (h : heap) (s : source) : res (heap * vec) :=
  match s with
  | Rows capacity l => let '(h1, v) := new_vec h capacity in set_col h1 v 0 l
  | Repeat x n => const_vec h x n
  | Numbers a d n => let '(h1, v) := new_vec h VCAP in Ok (h1, sequence v a d n)
  end.
Definition perform (h : heap) (v : vec) (n : nat) (u : use) : res (heap * vec * nat) :=
  match u with
  | Select ix => do v' <- slice_sel v (Some ix) (length ix); Ok (h, v', length ix)
  | Interval a b => do v' <- slice_range v a b; Ok (h, v', b - a)
  | Flatten => do '(h', v') <- flatten h v n; Ok (h', v', n)
  | CopyFrom a => let '(h1, t) := new_vec h (n - a) in do '(h2, t') <- copy_sel h1 v t None n a 0; Ok (h2, t', n - a)
  | Unify => do '(h', v', _) <- to_unified h v n; Ok (h', v', n)
  end.
Fixpoint performs (h : heap) (v : vec) (n : nat) (us : list use) : res (heap * vec * nat) :=
  match us with [] => Ok (h, v, n) | u :: r => do '(h', v', n') <- perform h v n u; performs h' v' n' r end.

(** The guard.  Values of a vector are within its capacity, a value is repeated at least once, numbers are 64 bit ones. *)
Definition within (z : Z) : bool := ((- 2 ^ 63 <=? z) && (z <? 2 ^ 63))%Z.
Definition can_build (s : source) : bool :=
  match s with
  | Rows capacity l => length l <=? capacity
  | Repeat _ n => 1 <=? n
  | Numbers a d n => forallb (fun i => within (a + d * Z.of_nat i)%Z) (seq 0 n)
  end.
(** The form a vector has.  No part of a sequence is taken before it is written out; a constant keeps the number of rows it
    was made for as its limit, and rows after the first are copied out of at most 1024. *)
Inductive form := Plain | Selection | Const (limit : nat) | Sequence.
Definition form_of (s : source) : form := match s with Rows _ _ => Plain | Repeat _ n => Const n | Numbers _ _ _ => Sequence end.
Definition next_form (f : form) (u : use) : form :=
  match u, f with
  | Select _, Plain => Selection
  | (Flatten | CopyFrom _), _ | Unify, Sequence => Plain
  | _, _ => f
  end.
Definition can_use (f : form) (n : nat) (u : use) : bool :=
  match u, f with
  | (Select _ | Interval _ _ | CopyFrom _), Sequence => false
  | Select ix, Const limit => length ix <=? limit
  | CopyFrom a, Const _ => (n <=? VCAP) || (a =? 0)
  | _, _ => true
  end.
Fixpoint can_uses (f : form) (l : list (option Z)) (us : list use) : bool :=
  match us with
  | [] => true
  | u :: r => can_use f (length l) u && match effect l u with Some l' => can_uses (next_form f u) l' r | None => false end
  end.

(** ** Chunks *)
(** Tables of the same number of rows in each column; a history makes chunks and works on those made so far. *)
Notation table := (list (list (option Z))) (only parsing).
Inductive act :=
| Make (capacity : nat) (t : list (list (option Z)))
| Choose (c : nat) (ix : list nat)
| WriteOut (c : nat)
| Append (target from : nat) (grow : bool) (sel : option (list nat))
| CopyOf (c from capacity : nat).

Fixpoint pick_all (t : table) (ix : list nat) : option (list (list (option Z))) :=
  match t with
  | [] => Some []
  | l :: r => match pick l ix, pick_all r ix with Some x, Some y => Some (x :: y) | _, _ => None end
  end.
Definition rows (t : table) : nat := match t with [] => 0 | l :: _ => length l end.
Definition even (t : table) : bool := forallb (fun l => length l =? rows t) t.
Fixpoint beside (a b : table) : list (list (option Z)) :=
  match a, b with x :: a', y :: b' => (x ++ y) :: beside a' b' | _, _ => [] end.

(** What the tables are. *)
Definition after (e : list (list (list (option Z)))) (a : act) : option (list (list (list (option Z)))) :=
  match a with
  | Make _ t => Some (e ++ [t])
  | Choose c ix => match nth_error e c with
                   | Some t => match pick_all t ix with Some t' => Some (list_set e c t') | None => None end
                   | None => None
                   end
  | WriteOut c => Some e
  | Append c s _ sel => match nth_error e c, nth_error e s with
                        | Some t, Some u => match (match sel with Some ix => pick_all u ix | None => Some u end) with
                                            | Some u' => Some (list_set e c (beside t u'))
                                            | None => None
                                            end
                        | _, _ => None
                        end
  | CopyOf c from _ => match nth_error e c with Some t => Some (e ++ [map (skipn from) t]) | None => None end
  end.

(** The calls. *)
Definition act_on (h : heap) (e : list chunk) (a : act) : res (heap * list chunk) :=
  match a with
  | Make capacity t =>
    let '(h1, c) := new_chunk h (length t) capacity in
    do '(h2, vs) <- set_cols h1 (cols c) t; Ok (h2, e ++ [{| cols := vs; count := rows t; cap := capacity |}])
  | Choose c ix => match nth_error e c with
                   | Some x => do x' <- chunk_slice x (Some ix) (length ix); Ok (h, list_set e c x')
                   | None => Err UB
                   end
  | WriteOut c => match nth_error e c with
                  | Some x => do '(h', x') <- chunk_flatten h x; Ok (h', list_set e c x')
                  | None => Err UB
                  end
  | Append c s grow sel => match nth_error e c, nth_error e s with
                           | Some t, Some u => do '(h', t') <- append h t u grow sel; Ok (h', list_set e c t')
                           | _, _ => Err UB
                           end
  | CopyOf c from capacity => match nth_error e c with
                              | Some x => let '(h1, t) := new_chunk h (length (cols x)) capacity in
                                          do '(h2, t') <- chunk_copy h1 x t from; Ok (h2, e ++ [t'])
                              | None => Err UB
                              end
  end.
Fixpoint acts_on (h : heap) (e : list chunk) (l : list act) : res (heap * list chunk) :=
  match l with [] => Ok (h, e) | a :: r => do '(h', e') <- act_on h e a; acts_on h' e' r end.

(** The guard: what each chunk can hold, [None] once rows were chosen from it (it is not appended to any more, nor is what was
    written out after that). *)
Definition can_act (g : list (option nat)) (e : list (list (list (option Z)))) (a : act) : bool :=
  match a with
  | Make capacity t => even t && (1 <=? length t) && (rows t <=? capacity)
  | Choose c _ | WriteOut c => c <? length e
  | Append c s grow sel =>
    match nth_error g c, nth_error e c, nth_error e s with
    | Some (Some capacity), Some t, Some u =>
      negb (c =? s) && (length t =? length u) && negb (rows u =? 0) &&
      (grow || (rows t + (match sel with Some ix => length ix | None => rows u end) <=? capacity))
    | _, _, _ => false
    end
  | CopyOf c from capacity => match nth_error e c with
                              | Some t => (from <=? rows t) && (rows t - from <=? capacity)
                              | None => false
                              end
  end.
Definition next_guard (g : list (option nat)) (e : list (list (list (option Z)))) (a : act) : list (option nat) :=
  match a with
  | Make capacity _ | CopyOf _ _ capacity => g ++ [Some capacity]
  | Choose c _ => list_set g c None
  | WriteOut _ => g
  | Append c s _ sel =>
    match nth_error g c, nth_error e c, nth_error e s with
    | Some (Some capacity), Some t, Some u =>
      let n := rows t + (match sel with Some ix => length ix | None => rows u end) in
      list_set g c (Some (if capacity <? n then next_pow2 n else capacity))
    | _, _, _ => g
    end
  end.
Fixpoint history (g : list (option nat)) (e : list (list (list (option Z)))) (l : list act) : option (list (list (list (option Z)))) :=
  match l with
  | [] => Some e
  | a :: r => if can_act g e a then match after e a with Some e' => history (next_guard g e a) e' r | None => None end else None
  end.

(** A chunk shows a table. *)
Definition shows (h : heap) (c : chunk) (t : list (list (option Z))) : Prop :=
  count c = rows t /\ length (cols c) = length t /\
  forall k v l, nth_error (cols c) k = Some v -> nth_error t k = Some l ->
  forall i x, nth_error l i = Some x -> value h v i = Ok x.
