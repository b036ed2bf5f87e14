(** What a NULL mask means: the set of valid rows. *)
From Verif Require Import Bytes Outcome ValidModel.
Local Open Scope nat_scope.

Definition words (h : heap) (a : nat) : list N := match nth_error h a with Some ws => ws | None => [] end.
(** row [j] is valid: no array at all, or bit [j mod 64] of word [j / 64] is set *)
Definition valid (h : heap) (m : mask) (j : nat) : bool :=
  match mptr m with
  | None => true
  | Some a => N.testbit (nth (j / 64) (words h a) 0%N) (N.of_nat (j mod 64))
  end.

(** A mask in good order: its array exists, has a word for every row and holds 64-bit words. *)
Definition mask_ok (h : heap) (m : mask) : Prop :=
  match mptr m with
  | None => True
  | Some a => exists ws, nth_error h a = Some ws /\ mcnt m <= length ws /\ Forall (fun w => (w < 2 ^ 64)%N) ws
  end.

(** Nothing but the array of [m] changes in the heap. *)
Definition untouched (h h' : heap) (m : mask) : Prop :=
  length h <= length h' /\ forall b, b < length h -> Some b <> mptr m -> nth_error h' b = nth_error h b.

(** two masks do not share an array *)
Definition unshared (m o : mask) : Prop := forall a, mptr m = Some a -> mptr o <> Some a.

(** number of valid rows below [n] *)
Definition valid_rows (h : heap) (m : mask) (n : nat) : N := N.of_nat (length (filter (valid h m) (seq 0 n))).

(** what every operation leaves alone: the other arrays, and the array [m] points to stays its array; a
    mask without an array gets a new one, never one that exists already *)
Definition post (h h' : heap) (m m' : mask) : Prop :=
  mask_ok h' m' /\ mcnt m' = mcnt m /\ untouched h h' m /\ (mptr m <> None -> mptr m' = mptr m) /\
  (mptr m = None -> forall b, b < length h -> mptr m' <> Some b).

(** all cases but: source without an array, target with one, target position a multiple of 64 and source
    position not *)
Definition slice_defined (m o : mask) (toff soff : nat) : bool :=
  negb ((if mptr o then false else true) && (if mptr m then true else false) && (toff mod 64 =? 0) && negb (soff mod 64 =? 0)).
