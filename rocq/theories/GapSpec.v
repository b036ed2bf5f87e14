(** What it means that space is neither lost nor handed out twice. *)
From Verif Require Import Bytes Outcome GapModel.
Local Open Scope N_scope.

Definition covers (x : range) (b : N) : bool := (fst x <=? b) && (b <? fst x + snd x).
(** how many of the ranges contain position [b] *)
Fixpoint cov (l : list range) (b : N) : nat :=
  match l with [] => O | x :: r => ((if covers x b then 1 else 0) + cov r b)%nat end.

(** Every position of [lo, hi) belongs to exactly one range, every other position to none. *)
Definition partition (lo hi : N) (l : list range) : Prop :=
  forall b, cov l b = if (lo <=? b) && (b <? hi) then 1%nat else O.

(** Free ranges are in ascending order with something between any two neighbours. *)
Fixpoint separated (l : list range) : Prop :=
  match l with
  | x :: ((y :: _) as r) => fst x + snd x < fst y /\ separated r
  | _ => True
  end.

Definition nonempty (l : list range) : Prop := Forall (fun x => 0 < snd x) l.

Definition disjoint (x y : range) : Prop := forall b, covers x b = true -> covers y b = true -> False.

Definition is_free (lo hi : N) (held : list range) (b : N) : Prop := lo <= b < hi /\ cov held b = O.

Definition positive (op : gop) : Prop := match op with Alloc n => 0 < n | Free _ => True end.

(** A store in good order: its segments and free ranges partition the space, the last free range
    reaches the end, loaded blocks have the size of their place, and a block that is not modified (or
    not loaded) is present in the file at its place. *)
Definition last_end (l : list range) : N := let x := last l (0, 0) in fst x + snd x.
Definition block_ok (f : list byte) (b : seg) : Prop :=
  (forall d, sblock b = Some d -> N.of_nat (length d) = ssize b) /\
  (smod b = false \/ sblock b = None ->
     soff b + ssize b <= N.of_nat (length f) /\
     fread (N.to_nat (soff b)) (N.to_nat (ssize b)) f = content f b).
Definition store_ok (lo hi : N) (st : sstore) : Prop :=
  partition lo hi (map place (segs st) ++ sgaps st) /\
  separated (sgaps st) /\ nonempty (sgaps st) /\ nonempty (map place (segs st)) /\
  sgaps st <> [] /\ last_end (sgaps st) = hi /\
  Forall (block_ok (bytes (file st))) (segs st).

(** Every allocation finds a gap that is large enough. *)
Fixpoint always_fits (s : gstate) (ops : list gop) : Prop :=
  match ops with
  | [] => True
  | op :: r => (match op with Alloc n => exists x, In x (gaps s) /\ n <= snd x | Free _ => True end) /\
               match gstep s op with Ok t => always_fits t r | Err _ => True end
  end.
